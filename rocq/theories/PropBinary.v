(** * The properties of binary contexts and numbers (C31, C32)

    Vocabulary: SpecBinary (the operators and their meaning), SpecParse (numerals). *)
From Coq Require Import List NArith ZArith Bool Arith Lia String.
From Verif Require Import ModelBase ModelContext ModelEvaluator ModelText ModelDefault ModelNum ModelOps ModelStd ModelSplit ModelTokenizer ModelParse ModelBinary
  SpecExpr SpecTokens SpecText SpecOps SpecLex SpecLex2 SpecParse SpecTokenizer SpecBinary
  ProofText ProofYard ProofRpn ProofBuild ProofOps ProofTokens2 ProofWf ProofSplit ProofLex ProofLex3 ProofTok ProofExprText ProofTok2 ProofParse ProofBinary.
Import ListNotations.
Local Open Scope Z_scope.

(** [DefaultContext::new_binary()] in a debug build, with its splitter. *)
Definition bin_ctx : ctx Z unit := to_ctx std_env (unres (binary_context true std_env plain_config) plain_config).
Definition bin_split : str -> list str := split_into_tokens binary_number_splitter.
Definition bin_eval (s : string) : res Z := fst (eval bin_ctx parse_binary bin_split true (lit s) tt).

(** ** C31 *)

Theorem C31_constructor : forall W dbg E cf, exists d, binary_context (W := W) dbg E cf = Ok d.
Proof. intros. eexists. apply binary_is. Qed.
Print Assumptions C31_constructor.

(** Every operator, by each of its names in any case of letters, returns what it means, a 128-bit number; shifts if the
    amount is below 128. *)
Theorem C31_operators : forall W dbg E cf d, binary_context (W := W) dbg E cf = Ok d -> forall o q x y w, In o binary_operators -> named q o ->
  fits i128 x -> fits i128 y -> (is_shift o = true -> 0 <= y < 128) ->
  exists v, apply_binary (to_ctx E d) q x y w = (Ok v, w) /\ fits i128 v /\ means o x y v.
Proof.
  intros W dbg E cf d H o q x y w Ho (name & Hn & Hq) Fx Fy Hs. destruct (operators_implemented dbg E cf d H o Ho) as (f & (_ & _ & Hf) & Hg).
  unfold apply_binary. rewrite (Hg name q Hn Hq). exact (Hf x y w Fx Fy Hs).
Qed.
Print Assumptions C31_operators.

(** The meaning fixes the result. *)
Theorem C31_meaning_unique : forall o x y r1 r2, In o binary_operators -> (is_shift o = true -> 0 <= y < 128) -> means o x y r1 -> means o x y r2 -> r1 = r2.
Proof. exact means_unique. Qed.
Print Assumptions C31_meaning_unique.

Theorem C31_complement : forall W dbg E cf d, binary_context (W := W) dbg E cf = Ok d -> forall q x w, ascii_alike q (lit "~") \/ ascii_alike q (lit "not") ->
  fits i128 x -> exists v, apply_unary (to_ctx E d) q x w = (Ok v, w) /\ fits i128 v /\ forall i, 0 <= i -> Z.testbit v i = negb (Z.testbit x i).
Proof.
  intros W dbg E cf d H q x w Hq Fx. exists (Z.lnot x). unfold apply_unary. rewrite (binary_not dbg E cf d H q Hq). split; [reflexivity|]. split; [apply fits_lnot; exact Fx|].
  intros i Hi. apply Z.lnot_spec. exact Hi.
Qed.
Print Assumptions C31_complement.

(** In [x o1 y o2 z] the left operator takes [y] exactly if its precedence is not lower. *)
Theorem C31_grouping : forall W dbg E cf d, binary_context (W := W) dbg E cf = Ok d -> forall o1 o2 q1 q2, In o1 binary_operators -> In o2 binary_operators ->
  named q1 o1 -> named q2 o2 -> (groups_left (to_ctx E d) q1 q2 <-> (precedence o2 <= precedence o1)%N).
Proof.
  intros W dbg E cf d H o1 o2 q1 q2 H1 H2 (n1 & N1 & A1) (n2 & N2 & A2).
  destruct (operators_implemented dbg E cf d H o1 H1) as (f1 & (P1 & L1 & _) & G1). destruct (operators_implemented dbg E cf d H o2 H2) as (f2 & (P2 & L2 & _) & G2).
  specialize (G1 n1 q1 N1 A1). specialize (G2 n2 q2 N2 A2). rewrite <- P1, <- P2. split.
  - intros (g1 & g2 & E1 & E2 & X). rewrite G1 in E1. rewrite G2 in E2. injection E1 as <-. injection E2 as <-. destruct X as [X|[X _]]; lia.
  - intros X. exists f1, f2. split; [exact G1|]. split; [exact G2|]. destruct (N.eq_dec (bf_prec f1) (bf_prec f2)) as [Y|Y]; [right; auto|left; lia].
Qed.
Print Assumptions C31_grouping.

(** So whole expressions have their value; *)
Theorem C31_expressions : forall W dbg E cf d, binary_context (W := W) dbg E cf = Ok d -> forall e v w, wf (to_ctx E d) e -> has_value e v ->
  eval_tokens (to_ctx E d) dbg (print e) w = (Ok v, w) /\ fits i128 v.
Proof.
  intros W dbg E cf d H e v w Hw Hv. rewrite eval_tokens_print by exact Hw. destruct (value_denote dbg E cf d H e v Hv) as [F D]. auto.
Qed.
Print Assumptions C31_expressions.

(** ... and without shifts they always have one. *)
Theorem C31_no_failure : forall W dbg E cf d, binary_context (W := W) dbg E cf = Ok d -> forall e w, wf (to_ctx E d) e -> bit_expression e ->
  exists v, has_value e v /\ eval_tokens (to_ctx E d) dbg (print e) w = (Ok v, w).
Proof.
  intros W dbg E cf d H e w Hw Hb. destruct (value_exists dbg E cf d H e Hb) as [v Hv]. exists v. split; [exact Hv|].
  apply (C31_expressions W dbg E cf d H e v w Hw Hv).
Qed.
Print Assumptions C31_no_failure.

(** A shift by an amount out of range panics in debug builds; in release builds the amount is taken modulo 128. *)
Theorem C31_shift_out_of_range : forall W E cf (w : W) o q x y, In o binary_operators -> named q o -> is_shift o = true -> ~ 0 <= y < 128 ->
  (forall d, binary_context true E cf = Ok d -> apply_binary (to_ctx E d) q x y w = (Panic, w)) /\
  (forall d, binary_context false E cf = Ok d -> apply_binary (to_ctx E d) q x y w = apply_binary (to_ctx E d) q x (y mod 128) w).
Proof.
  intros W E cf w o q x y Ho (name & Hn & Hq) Hs Hy.
  assert (O1 : forall dbg g, shift dbg g y = if dbg then Panic else Ok (g (y mod 128))).
  { intros dbg g. unfold shift. destruct (0 <=? y) eqn:A; destruct (y <? 128) eqn:B; cbn; try reflexivity; lia. }
  assert (O2 : forall dbg g, shift dbg g (y mod 128) = Ok (g (y mod 128))).
  { intros dbg g. apply shift_in. apply Z.mod_pos_bound. lia. }
  assert (Q : ascii_alike q (lit ">>") \/ ascii_alike q (lit "shr") \/ ascii_alike q (lit "<<") \/ ascii_alike q (lit "shl")).
  { unfold binary_operators in Ho. repeat (destruct Ho as [<-|Ho]; [try discriminate Hs; cbn [names In] in Hn|]); try contradiction;
    destruct Hn as [<-|[<-|[]]]; tauto. }
  assert (L : forall dbg d, binary_context (W := W) dbg E cf = Ok d -> get_binary (to_ctx E d) q = Some (b_shr dbg) \/ get_binary (to_ctx E d) q = Some (b_shl dbg)).
  { intros dbg d H. destruct Q as [Q|[Q|[Q|Q]]]; [left|left|right|right]; (eapply (binary_lookup dbg E cf d H); [|exact Q]);
    unfold bins_of, bin_steps, bin_ops; cbn [map flat_map app]; unfold b_not, b_and, b_or, b_xor, b_eq, b_ne, b_gt, b_lt, b_gte, b_lte, bin2; cbn [bf_aliases bf_name map]; repeat first [left; reflexivity | right]. }
  split; intros d H; unfold apply_binary; destruct (L _ d H) as [-> | ->]; cbn [bf_call b_shr b_shl bin2]; unfold lift; rewrite O1; [reflexivity|reflexivity|rewrite O2; reflexivity|rewrite O2; reflexivity].
Qed.
Print Assumptions C31_shift_out_of_range.

Lemma binary_safe : forall W dbg E cf d, binary_context (W := W) dbg E cf = Ok d ->
  (forall f, calls_safely (to_ctx E d) (TFunction f)) /\ (forall u, calls_safely (to_ctx E d) (TUnary u)) /\
  (forall o, (dbg = true -> forall name, In name [">>"; "shr"; "<<"; "shl"]%string -> eq_ignore_case E o (lit name) = false) -> calls_safely (to_ctx E d) (TBinary o)).
Proof.
  intros W dbg E cf d H.
  assert (G : forall q f x y w', get_binary (to_ctx E d) q = Some f -> (dbg = true -> forall name, In name [">>"; "shr"; "<<"; "shl"]%string -> eq_ignore_case E q (lit name) = false) ->
    fst (bf_call f x y w') <> Panic).
  { intros q f x y w' Hf Hn Hp. destruct (op_panics dbg E cf d H f x y w' (binary_found dbg E cf d H q f Hf) Hp) as (Hd & Hs & _). specialize (Hn Hd).
    destruct (binary_found_name dbg E cf d H q f Hf) as (k & Hk & Ek).
    assert (K : In k [lit ">>"; lit "shr"; lit "<<"; lit "shl"]).
    { exact (shift_names dbg k f Hk Hs). }
    destruct K as [<-|[<-|[<-|[<-|[]]]]]; (rewrite Hn in Ek by (cbn; tauto)); discriminate. }
  cbn [calls_safely]. split; [|split].
  - intros f g args w' Hf. rewrite (binary_no_fun dbg E cf d H) in Hf. discriminate.
  - intros u g x w' Hf. rewrite (binary_found_un dbg E cf d H _ g Hf). discriminate.
  - intros o Ho g x y w' Hf. exact (G _ g x y w' Hf Ho).
Qed.

(** Nothing else panics: any tokens in release builds, and in debug builds any that mention no shift. *)
Theorem C31_never_panics : forall W dbg E cf d, binary_context (W := W) dbg E cf = Ok d -> forall toks w,
  (dbg = true -> forall q, In (TBinary q) toks -> forall name, In name [">>"; "shr"; "<<"; "shl"]%string -> eq_ignore_case E q (lit name) = false) ->
  fst (eval_tokens (to_ctx E d) dbg toks w) <> Panic.
Proof.
  intros W dbg E cf d H toks w Hq. destruct (binary_safe W dbg E cf d H) as (SF & SU & SB). apply eval_no_panic.
  - apply Forall_forall. intros t Ht. destruct t; try exact I; [apply SF|apply SB|apply SU]. intros Hd. exact (Hq Hd _ Ht).
  - intros _. apply SB. intros _ nm Hn. destruct Hn as [<-|[<-|[<-|[<-|[]]]]]; reflexivity.
Qed.
Print Assumptions C31_never_panics.

Lemma blank_reads : forall bin dollar s, blank s -> reads_as bin dollar s [].
Proof. induction s as [|c s IH]; intros B; [constructor|]. inversion B; subst. apply reads_space; auto. Qed.
(** From the text: if the words of the string, as the splitter of binary contexts finds them, spell the expression. *)
Theorem C31_text : forall W dbg E cf d, binary_context (W := W) dbg E cf = Ok d -> forall e v s ws w, wf (to_ctx E d) e -> has_value e v ->
  reads_as true false s ws -> Forall2 (spells (to_ctx E d) parse_binary) (print e) ws -> readable (to_ctx E d) e -> (complex_number cf = true -> ~ In (lit "i") ws) ->
  eval (to_ctx E d) parse_binary (split_into_tokens binary_number_splitter) dbg s w = (Ok v, w).
Proof.
  intros W dbg E cf d H e v s ws w Hw Hv Hr Hs Hn Hi. destruct (value_denote dbg E cf d H e v Hv) as [F D].
  pose proof (reads_split true false s ws Hr) as Hsp. change (the_rules true false) with binary_number_splitter in Hsp.
  unfold eval, bind, lift.
  assert (NB : ~ blank s). { intros B. assert (ws = []) by (rewrite <- Hsp; apply (reads_split true false); apply blank_reads; exact B). subst ws. destruct (print e) eqn:Q; [exact (ProofExprText.print_nonempty e Q)|inversion Hs; congruence]. }
  rewrite tokenize_not_blank by exact NB. change (split_into_tokens binary_number_splitter s) with (split_ true false s). rewrite Hsp.
  rewrite (loop_complete (to_ctx E d) parse_binary None ws (print e)).
  - rewrite eval_tokens_print by exact Hw. rewrite D. reflexivity.
  - apply text_stands; try assumption. unfold no_i. rewrite (binary_cfg dbg E cf d H). exact Hi.
Qed.
Print Assumptions C31_text.

Definition C31_tree : expr Z := EBin (lit "<") (EBin (lit "AND") (EPre (lit "~") (ENum 5)) (EGroup Parenthesis (EBin (lit "shl") (ENum 3) (ENum 2)))) (EBin (lit "|") (ENum 8) (ENum 1)).
Lemma C31_alike : forall a b, map to_ascii_lowercase a = map to_ascii_lowercase b -> ascii_alike a b.
Proof. intros. apply fold_alike. assumption. Qed.
Lemma C31_op : forall n q x y v (l r : expr Z), let o := nth n binary_operators {| names := []; precedence := 0; is_shift := false; means := fun _ _ _ => False |} in
  (n < 11)%nat -> named q o -> has_value l x -> has_value r y -> (is_shift o = true -> 0 <= y < 128) -> means o x y v -> has_value (EBin q l r) v.
Proof. intros n q x y v l r o Hn. intros. eapply V_operator; try eassumption. apply nth_In. exact Hn. Qed.
Definition C31_words : list str := map lit ["~"; "b101"; "AND"; "("; "b11"; "shl"; "2"; ")"; "<"; "b1000"; "|"; "1"]%string.
(** The hypotheses of C31_text hold of this text: [&] and [|] bind tighter than [<]. *)
Example C31_case : wf bin_ctx C31_tree /\ has_value C31_tree 1 /\ reads_as true false (lit "~b101 AND (b11 shl 2) < b1000|1") C31_words /\
  Forall2 (spells bin_ctx parse_binary) (print C31_tree) C31_words /\ readable bin_ctx C31_tree /\ bin_eval "~b101 AND (b11 shl 2) < b1000|1" = Ok 1 /\
  bin_eval "b1000 > b0111" = Ok 1 /\ bin_eval "b101 << 126" = Ok (2 ^ 126) /\ bin_eval "1 << 128" = Panic.
Proof.
  split; [apply wfb_sound; vm_compute; reflexivity|]. split.
  { apply (C31_op 6 (lit "<") 8 9).
    - lia.
    - exists "<"%string. split; [left; reflexivity|apply alike_refl].
    - apply (C31_op 2 (lit "AND") (-6) 12); [lia|exists "and"%string; split; [right; left; reflexivity|apply C31_alike; reflexivity]| | |discriminate|].
      + apply (V_not (lit "~") _ 5); [left; apply alike_refl|apply V_number; rewrite fits128; lia|]. intros i Hi. change (-6) with (Z.lnot 5). apply Z.lnot_spec. exact Hi.
      + apply V_group. apply (C31_op 10 (lit "shl") 3 2); [lia|exists "shl"%string; split; [right; left; reflexivity|apply alike_refl]| | |intros _; lia|].
        * apply V_number. rewrite fits128. lia.
        * apply V_number. rewrite fits128. lia.
        * split; [rewrite fits128; lia|exists 0; reflexivity].
      + intros i Hi. change 8 with (Z.land (-6) 12). apply Z.land_spec.
    - apply (C31_op 0 (lit "|") 8 1); [lia|exists "|"%string; split; [left; reflexivity|apply alike_refl]| | |discriminate|].
      + apply V_number. rewrite fits128. lia.
      + apply V_number. rewrite fits128. lia.
      + intros i Hi. change 9 with (Z.lor 8 1). apply Z.lor_spec.
    - discriminate.
    - left. split; [lia|reflexivity]. }
  split; [assert (X : split_ true false (lit "~b101 AND (b11 shl 2) < b1000|1") = C31_words) by (vm_compute; reflexivity); rewrite <- X; apply split_reads|].
  split; [|split; [apply single_sound; vm_compute; reflexivity|vm_compute; repeat split]].
  unfold C31_tree, C31_words. cbn [print map app]. repeat (apply Forall2_cons; [apply (spells_sound Z.eqb (fun x y => proj1 (Z.eqb_eq x y))); vm_compute; reflexivity|]); apply Forall2_nil.
Qed.

(** The precedences are not those of C or Rust, where [1 | 2 & 4] is [1 | (2 & 4)] and [4 == 1 << 2] is [4 == (1 << 2)]: here
    [|] binds tightest and shifts loosest. *)
Theorem C31_usual_precedence_refuted : bin_eval "1 | 2 & 4" = Ok 0 /\ bin_eval "1 | (2 & 4)" = Ok 1 /\ bin_eval "4 == 1 << 2" = Ok 0 /\ bin_eval "4 == (1 << 2)" = Ok 1.
Proof. vm_compute. repeat split. Qed.
Print Assumptions C31_usual_precedence_refuted.

(** [~] cannot be applied twice without parentheses, and negative numbers cannot be written. *)
Theorem C31_double_not_refuted : bin_eval "~ ~5" = Err InvalidInput /\ bin_eval "~(~5)" = Ok 5 /\ bin_eval "-1" = Err InvalidInput /\ bin_eval "~0" = Ok (-1).
Proof. vm_compute. repeat split. Qed.
Print Assumptions C31_double_not_refuted.

(** ** C32 *)

(** The texts that parse: [b] and binary digits with an optional sign, or decimal digits with an optional sign, of a value
    in range. *)
Theorem C32_parse : forall s v, parse_binary s = Some v <-> fits i128 v /\ ((exists t, s = 98%N :: t /\ numeral 2 true t v) \/ numeral 10 true s v).
Proof. exact parse_binary_spec. Qed.
Print Assumptions C32_parse.

(** A number prints as the binary digits of its two's complement, without leading zeros. *)
Theorem C32_display : forall z, digits 2 (show_binary z) (z mod 2 ^ 128) /\ show_binary z <> [] /\ (forall t, show_binary z = 48%N :: t -> t = []).
Proof.
  intros z. split; [apply show_digits|]. split; [apply show_nonempty|]. intros t. unfold show_binary. destruct (z mod 2 ^ 128) as [|p|p]; try congruence.
  destruct (bits_first p) as [s ->]. discriminate.
Qed.
Print Assumptions C32_display.

(** Printing and parsing back with the prefix: exactly the non-negative numbers come back. *)
Theorem C32_round_trip : forall z, fits i128 z -> (0 <= z -> parse_binary (98%N :: show_binary z) = Some z) /\ (z < 0 -> parse_binary (98%N :: show_binary z) = None).
Proof.
  intros z Hf. pose proof (show_digits z) as D. rewrite fits128 in Hf. split; intros Hz.
  - rewrite Z.mod_small in D by lia. apply C32_parse. split; [rewrite fits128; lia|]. left. exists (show_binary z). split; [reflexivity|]. constructor; [exact D|apply show_nonempty].
  - destruct (parse_binary (98%N :: show_binary z)) as [v|] eqn:P; [exfalso|reflexivity]. apply C32_parse in P. rewrite fits128 in P. destruct P as [F [(t & Et & N)|N]].
    + injection Et as <-. pose proof (numeral_digits 2 true _ _ _ ltac:(lia) D N). subst v. rewrite <- (Z.mod_add z 1 (2 ^ 128)) in F by lia. rewrite Z.mod_small in F by lia. lia.
    + inversion N; subst. match goal with D : digits 10 _ _ |- _ => pose proof (digits_signs 10 _ _ ltac:(lia) D) as X end. cbn in X. tauto.
Qed.
Print Assumptions C32_round_trip.

(** Without the prefix the digits are read as decimal digits: only 0 and 1 come back. *)
Theorem C32_prefix_needed : forall z, fits i128 z -> (parse_binary (show_binary z) = Some z <-> z = 0 \/ z = 1).
Proof.
  intros z Hf. pose proof (show_digits z) as D. rewrite C32_parse. split.
  - intros [_ [(t & Et & _)|N]].
    + exfalso. pose proof (digits_signs 2 _ _ ltac:(lia) D) as S. rewrite Et in S. lia.
    + destruct (digits_two_ten _ _ D) as [v10 D10]. pose proof (numeral_digits 10 true _ _ _ ltac:(lia) D10 N). subst v10.
      destruct (ten_two _ _ _ D D10) as [A B]. rewrite fits128 in Hf. pose proof (Z.mod_pos_bound z (2 ^ 128) ltac:(lia)).
      assert (0 <= z) by lia.
      rewrite Z.mod_small in B by lia. specialize (B eq_refl). lia.
  - intros Hz. split; [exact Hf|]. right. destruct Hz as [-> | ->]; (constructor; [|discriminate]); [apply (digits_more 10 [] 0 0 48%N)|apply (digits_more 10 [] 0 1 49%N)]; try constructor; lia.
Qed.
Print Assumptions C32_prefix_needed.

Lemma digits_two_char : forall s v x, digits 2 s v -> In x s -> x = 48%N \/ x = 49%N.
Proof. intros s v x D. induction D; intros Hc; [destruct Hc|]. apply in_app_or in Hc. destruct Hc as [Hc|[<-|[]]]; [auto|lia]. Qed.
(** In an expression the prefixed digits are one word, a number. *)
Theorem C32_word : forall W (c : ctx Z W) z, fits i128 z -> 0 <= z -> tokenize c parse_binary (split_into_tokens binary_number_splitter) (98%N :: show_binary z) = Ok [TNumber z].
Proof.
  intros W c z Hf Hz. set (t := show_binary z).
  assert (R : reads_as true false (98%N :: t) [98%N :: t]).
  { rewrite <- (app_nil_r (98%N :: t)) at 1. apply reads_binary; [reflexivity| |exact I|constructor]. unfold t. clear - z. pose proof (show_digits z) as D. pose proof (show_nonempty z) as N.
    destruct (show_binary z) as [|c t]; [contradiction|]. exists c, t. split; [reflexivity|].
    assert (B : forall x, In x (c :: t) -> x = 48%N \/ x = 49%N) by (intros x Hx; exact (digits_two_char _ _ x D Hx)).
    split; [apply B; left; reflexivity|]. apply Forall_forall. intros x Hx. unfold digit; destruct (B x (or_intror Hx)) as [-> | ->]; lia. }
  pose proof (proj1 (C32_round_trip z Hf) Hz) as P. fold t in P.
  apply reads_split in R.
  rewrite tokenize_not_blank by (intros B; inversion B; discriminate). change (split_into_tokens binary_number_splitter (98%N :: t)) with (split_ true false (98%N :: t)). rewrite R.
  apply loop_complete. apply SS_word; [apply S_number; exact P| | |constructor].
  - intros (_ & _ & _ & p & X & _). discriminate.
  - intros (_ & _ & ws & X). discriminate.
Qed.
Print Assumptions C32_word.

Example C32_case : show_binary 10 = lit "1010" /\ parse_binary (lit "b1010") = Some 10 /\ parse_binary (lit "b-1010") = Some (-10) /\ parse_binary (lit "1010") = Some 1010 /\
  parse_binary (lit "b12") = None /\ List.length (show_binary (-1)) = 128%nat /\ parse_binary (98%N :: show_binary (-1)) = None /\ fits i128 (-1) /\ fits i128 10.
Proof. vm_compute. repeat split; congruence. Qed.
