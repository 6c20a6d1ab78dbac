(** * The properties of splitting, tokenizing and evaluating strings (C10-C17, C48)

    Vocabulary: SpecLex (words: [lexes s ws]), SpecTokenizer (what a word stands for), SpecParse (numerals). [splitters]
    is the list of the four splitters of the repository: the default one, the one of the binary context, the two of the
    REPL. A context [c], a number parser [parse] and a splitter make a [Tokenizer]. *)
From Coq Require Import List NArith ZArith Bool Arith Lia String.
From Verif Require Import ModelBase ModelContext ModelEvaluator ModelText ModelDefault ModelStr ModelFloat ModelNum ModelOps ModelStd ModelSplit ModelTokenizer ModelParse
  SpecExpr SpecTokens SpecText SpecOps SpecLex SpecLex2 SpecParse SpecTokenizer
  ProofText ProofYard ProofRpn ProofDefault ProofBuild ProofCtx ProofOps ProofTokens2 ProofWf ProofSplit ProofLex ProofLex2 ProofLex3 ProofTok ProofExprText ProofTok2 ProofParse ProofIntText PropOps.
Import ListNotations.

Definition dsplitter : str -> list str := split_into_tokens default_splitter.
Definition words (l : list string) : list str := map lit l.
Definition std_tokens (s : string) : res (list (token Z)) := tokenize (std_ctx plain_config) (parse_int i64) dsplitter (lit s).
Definition std_eval (s : string) : res Z := fst (eval (std_ctx plain_config) (parse_int i64) dsplitter true (lit s) tt).

(** ** C10 *)

(** Every splitter returns the characters of the input in order, without white space; it leaves out nothing else if no
    number is followed by a second decimal point. *)
Theorem C10_nothing_lost : forall rules, In rules splitters -> forall s,
  sub (List.concat (split_into_tokens rules s)) (without_spaces s) /\
  (~ second_point s -> List.concat (split_into_tokens rules s) = without_spaces s).
Proof. intros rules H s. apply (split_clean rules H s). Qed.
Print Assumptions C10_nothing_lost.

(** The splitter that keeps white space returns the whole input. *)
Theorem C10_keep_whitespace : forall s, ~ second_point s -> List.concat (split_into_tokens (new_splitter KeepWhitespace) s) = s.
Proof.
  apply split_all_kept; [repeat constructor|]. intros c s. cbn [new_splitter build_splitter apply_rules]. unfold split_numeric, split_identifier, split_operator.
  destruct (is_digit c); [destruct (numeric_tail false s); discriminate|]. destruct (is_ident_start c); [destruct (take_while is_ident_char s); discriminate|].
  destruct (is_operator_char c); [destruct (take_while is_operator_char s); discriminate|]. discriminate.
Qed.
Print Assumptions C10_keep_whitespace.

(** Without the condition it is false: [1.2.3] loses a point. *)
Theorem C10_always_refuted : exists s, List.concat (dsplitter s) <> without_spaces s /\ dsplitter s = words ["1.2"; "3"]%string.
Proof. exists (lit "1.2.3"). split; [discriminate|reflexivity]. Qed.
Print Assumptions C10_always_refuted.

Example C10_case : let s := lit "3.25*(x_1 - 10)" in ~ second_point s /\ List.concat (dsplitter s) = without_spaces s /\ List.length (dsplitter s) = 7%nat.
Proof.
  intros s. assert (E : List.concat (dsplitter s) = without_spaces s) by reflexivity. split; [|split; [exact E|reflexivity]].
  intros (a & d & ds & b & H & Hd & Hds). assert (C : count_occ N.eq_dec s point = 1%nat) by reflexivity. rewrite H, count_occ_app in C. cbn [count_occ] in C.
  destruct (N.eq_dec d point) as [->|Hn]; [unfold digit, point in Hd; lia|]. destruct (N.eq_dec point point) as [_|X]; [|congruence]. rewrite count_occ_app in C. cbn [count_occ] in C.
  destruct (N.eq_dec point point) as [_|X]; [|congruence]. lia.
Qed.

(** ** C11 *)

(** The default splitter cuts a string into the words that maximal munch says, and no others. *)
Theorem C11_maximal_munch : forall s ws, split_into_tokens default_splitter s = ws <-> lexes s ws.
Proof. intros s ws. split; [intros <-; apply split_lexes|apply lexes_split]. Qed.
Print Assumptions C11_maximal_munch.

(** ... so that reading is total and unambiguous. *)
Theorem C11_unique_words : forall s, exists ws, lexes s ws /\ (forall ws', lexes s ws' -> ws' = ws) /\ Forall a_word ws.
Proof.
  intros s. exists (split_into_tokens default_splitter s). split; [apply split_lexes|]. split; [intros ws' H; symmetry; apply lexes_split; exact H|].
  apply (lexes_words s). apply split_lexes.
Qed.
Print Assumptions C11_unique_words.

(** The same for all four: [bin] for the binary ones, [dollar] for those of the REPL. *)
Theorem C11_all_splitters : forall bin dollar rules,
  In (bin, dollar, rules) [(false, false, default_splitter); (true, false, binary_number_splitter); (false, true, repl_splitter false); (true, true, repl_splitter true)] ->
  forall s ws, split_into_tokens rules s = ws <-> reads_as bin dollar s ws.
Proof.
  intros bin dollar rules H s ws. assert (E : rules = the_rules bin dollar).
  { destruct the_four as (E1 & E2 & E3 & E4). simpl in H. destruct H as [H|[H|[H|[H|[]]]]]; injection H as <- <- <-; congruence. }
  subst rules. split; [intros <-; apply split_reads|apply reads_split].
Qed.
Print Assumptions C11_all_splitters.

(** Whatever list of the shipped rules a splitter is built with: the words are not empty, and they are made of the
    characters of the input in order. *)
Theorem C11_any_rules : forall rules, Forall shipped rules -> forall s,
  Forall (fun w => w <> []) (split_into_tokens rules s) /\ sub (List.concat (split_into_tokens rules s)) s.
Proof. exact split_honest. Qed.
Print Assumptions C11_any_rules.

(** No word of the four splitters contains white space or is empty. *)
Theorem C11_no_whitespace : forall rules, In rules splitters -> forall s,
  Forall (fun w => w <> [] /\ Forall (fun ch => is_whitespace ch = false) w) (split_into_tokens rules s).
Proof. intros rules H s. apply (split_clean rules H s). Qed.
Print Assumptions C11_no_whitespace.

(** White space is Unicode's property White_Space: tab to carriage return, space, next line, no-break space, ogham space mark, en quad to
    hair space, line and paragraph separator, narrow no-break space, medium mathematical space, ideographic space. *)
Theorem C11_white_space : forall c, is_whitespace c = true <->
  In c [9; 10; 11; 12; 13; 32; 133; 160; 5760; 8192; 8193; 8194; 8195; 8196; 8197; 8198; 8199; 8200; 8201; 8202; 8232; 8233; 8239; 8287; 12288]%N.
Proof.
  intros c. unfold is_whitespace, between. rewrite !orb_true_iff, !andb_true_iff, !N.eqb_eq, !N.leb_le. cbn [In]. split; [intros H; lia|intros H]. repeat (destruct H as [<- |H]; [lia|]). destruct H.
Qed.
Print Assumptions C11_white_space.

Example C11_case : dsplitter (lit "10.5+-x_1 *(sin 3)") = words ["10.5"; "+-"; "x_1"; "*"; "("; "sin"; "3"; ")"]%string /\
  split_into_tokens binary_number_splitter (lit "b101&bx") = words ["b101"; "&"; "bx"]%string /\
  split_into_tokens (repl_splitter false) (lit "$result*2") = words ["$result"; "*"; "2"]%string /\
  split_into_tokens default_splitter (lit "$result*2") = words ["$"; "result"; "*"; "2"]%string.
Proof. repeat split. Qed.

(** ** C12 *)

(** On ASCII strings the tokenizer never panics, whatever the context, the number type and the splitter built with the
    shipped rules. *)
Theorem C12_ascii_no_panic : forall V W (c : ctx V W) parse rules, Forall shipped rules -> forall s, ascii s ->
  tokenize c parse (split_into_tokens rules) s <> Panic.
Proof.
  intros V W c parse rules Hr s Ha H. destruct (blank_dec s) as [Hb|Hb]; [rewrite tokenize_blank in H by exact Hb; discriminate|].
  rewrite tokenize_not_blank in H by exact Hb. destruct (loop_panic c parse _ _ None (le_n _) H) as (x & p & q & r & y & E & _ & _ & _ & Hn). cbn [with_prev] in E.
  apply Hn. apply (ascii_words rules s p Hr Ha). rewrite E. apply in_or_app. right. left. reflexivity.
Qed.
Print Assumptions C12_ascii_no_panic.

(** On any string it panics only if a prefix operator, not the last word, stands directly after a word that ends no
    operand and does not begin with an ASCII character. *)
Theorem C12_panics : forall V W (c : ctx V W) parse splitter s, tokenize c parse splitter s = Panic ->
  exists before p u next after, splitter s = before ++ p :: u :: next :: after /\ operator_only c parse u /\ has_notation c u Prefix /\
  ~ ends_operand c parse p /\ ~ begins_ascii p.
Proof.
  intros V W c parse splitter s H. destruct (blank_dec s) as [Hb|Hb]; [rewrite tokenize_blank in H by exact Hb; discriminate|].
  rewrite tokenize_not_blank in H by exact Hb. exact (loop_panic c parse _ _ None (le_n _) H).
Qed.
Print Assumptions C12_panics.

(** That it never panics is false: [√ - 2]; nor is an unknown character needed, a function named √ has the same effect. *)
Theorem C12_never_refuted : exists s, fst (eval (std_ctx plain_config) (parse_int i64) dsplitter true s tt) = Panic /\
  tokenize (std_ctx plain_config) (parse_int i64) dsplitter s = Panic.
Proof. exists ([8730%N] ++ lit " - 2"). split; vm_compute; reflexivity. Qed.
Print Assumptions C12_never_refuted.

Example C12_case : ascii (lit "#? - )2") /\ std_tokens "#? - )2" = Ok [TUnknown (lit "#?"); TUnary (lit "-"); TClose 41%N; TNumber 2%Z].
Proof. split; [apply Forall_forall; intros x Hx; cbn in Hx; repeat (destruct Hx as [<-|Hx]; [reflexivity|]); contradiction|vm_compute; reflexivity]. Qed.

(** ** C13 *)

(** The tokens of a string are what its words stand for, in order; and conversely. *)
Theorem C13_words_to_tokens : forall V W (c : ctx V W) parse splitter s ts,
  tokenize c parse splitter s = Ok ts <-> ~ blank s /\ stand_for c parse None (splitter s) ts.
Proof.
  intros V W c parse splitter s ts. split.
  - intros H. destruct (blank_dec s) as [Hb|Hb]; [rewrite tokenize_blank in H by exact Hb; discriminate|]. rewrite tokenize_not_blank in H by exact Hb.
    split; [exact Hb|]. exact (loop_sound c parse _ _ None ts (le_n _) H).
  - intros [Hb H]. rewrite tokenize_not_blank by exact Hb. apply loop_complete. exact H.
Qed.
Print Assumptions C13_words_to_tokens.

(** One token for each word, at its place (without the feature of complex numbers). *)
Theorem C13_one_token_per_word : forall V W (c : ctx V W) parse s ws ts, complex_number (cfg c) = false ->
  lexes s ws -> tokenize c parse dsplitter s = Ok ts -> List.length ts = List.length ws /\
  forall before w after, ws = before ++ w :: after -> exists t, nth_error ts (List.length before) = Some t /\
    stands_for c parse (last_of None before) w (after = []) t.
Proof.
  intros V W c parse s ws ts Hc Hl H. pose proof (lexes_solid s ws Hl) as So. apply lexes_default in Hl. apply C13_words_to_tokens in H. destruct H as [_ H]. unfold dsplitter in H. rewrite Hl in H.
  destruct (positions c parse Hc None ws ts H So) as [P1 P2]. split; [exact P1|]. intros before w after E. destruct (P2 before w after E) as (t & T1 & T2 & _). eauto.
Qed.
Print Assumptions C13_one_token_per_word.

(** A word stands for one token at most; numbers come first, then variables, constants, functions. *)
Theorem C13_priority : forall V W (c : ctx V W) (parse : str -> option V) prev w last t, stands_for c parse prev w last t ->
  (forall v, parse w = Some v -> t = TNumber v) /\
  (parse w = None -> variable c w -> t = TVariable w) /\
  (parse w = None -> ~ variable c w -> constant c w -> t = TConstant w) /\
  (parse w = None -> ~ variable c w -> ~ constant c w -> function c w -> t = TFunction w) /\
  (operator_only c parse w -> unary c w \/ binary c w -> t = TUnary w \/ t = TBinary w) /\
  (nameless c parse w -> t = TComma \/ (exists g, t = TOpen (grouping_open g)) \/ (exists g, t = TClose (grouping_close g)) \/ t = TUnknown w).
Proof.
  intros V W c parse prev w last t H. inversion H as [v Hv|H1 H2|H1 H2 H3|H1 H2 H3 H4|H1 H2|H1 H2 H3 H4 H5|H1 H2|g H1 H2|g H1 H2|H1 H2 H3 H4]; subst;
    repeat match goal with
    | X : nameless _ _ _ |- _ => unfold nameless in X
    | X : operator_only _ _ _ /\ _ |- _ => destruct X
    | X : operator_only _ _ _ |- _ => unfold operator_only in X
    end; unfold nameless, operator_only; repeat split; intros; repeat match goal with X : _ /\ _ |- _ => destruct X end; try congruence; try contradiction; try tauto; eauto 6.
  all: match goal with X : unary_here _ _ _ _ _ |- _ => exfalso; destruct X as [((f & Hf & _) & _)|((f & Hf & _) & _)] end; match goal with X : ~ unary _ _ |- _ => apply X; unfold unary; congruence end.
Qed.
Print Assumptions C13_priority.

(** When the tokenizer returns an error, and which. *)
Theorem C13_errors : forall V W (c : ctx V W) parse splitter s k, tokenize c parse splitter s = Err k ->
  (blank s /\ k = Empty) \/
  (k = InvalidExpression /\ exists w, (unary c w \/ binary c w) /\ ((exists rest, splitter s = w :: rest) \/ exists before, splitter s = before ++ [w])) \/
  (k = InvalidInput /\ complex_number (cfg c) = true /\ exists before w after, splitter s = before ++ w :: lit "i" :: after /\ parse w <> None /\ parse (w ++ lit "i") = None).
Proof.
  intros V W c parse splitter s k H. destruct (blank_dec s) as [Hb|Hb]; [rewrite tokenize_blank in H by exact Hb; injection H as <-; auto|].
  rewrite tokenize_not_blank in H by exact Hb. right. destruct (loop_err c parse _ _ None k (le_n _) H) as [(-> & w & Hw & [[_ X]|X])|(-> & Hc & w & (x & y & E) & Hw)].
  - left. split; [reflexivity|]. exists w. auto.
  - left. split; [reflexivity|]. exists w. auto.
  - right. split; [reflexivity|]. split; [exact Hc|]. exists x, w, y. auto.
Qed.
Print Assumptions C13_errors.

Example C13_case : std_tokens "2*pi-max(4,1)" =
    Ok [TNumber 2%Z; TBinary (lit "*"); TConstant (lit "pi"); TBinary (lit "-"); TFunction (lit "max"); TOpen 40%N; TNumber 4%Z; TComma; TNumber 1%Z; TClose 41%N] /\
  std_tokens "3 +" = Err InvalidExpression /\ std_tokens "* 3" = Err InvalidExpression /\ std_tokens " " = Err Empty /\ std_tokens "3 ? x" = Ok [TNumber 3%Z; TUnknown (lit "?"); TUnknown (lit "x")].
Proof. vm_compute. repeat split. Qed.
(** A variable hides a constant, a function and an operator of the same name. *)
Example C13_hidden : let c := Ctx plain_config (fun x => if str_eqb x (lit "max") then Some 7%Z else None) (get_constant (std_ctx plain_config)) (get_function (std_ctx plain_config)) (get_unary (std_ctx plain_config)) (get_binary (std_ctx plain_config)) in
  tokenize c (parse_int i64) dsplitter (lit "max + 1") = Ok [TVariable (lit "max"); TBinary (lit "+"); TNumber 1%Z].
Proof. vm_compute. reflexivity. Qed.

(** ** C14 *)

(** An operator is read as unary exactly in the positions that [unary_here] describes; otherwise as binary. *)
Theorem C14_decision : forall V W (c : ctx V W) parse s ws ts, complex_number (cfg c) = false ->
  lexes s ws -> tokenize c parse dsplitter s = Ok ts -> forall before w after, ws = before ++ w :: after ->
  operator_only c parse w -> unary c w \/ binary c w ->
  (unary_here c parse (last_of None before) w (after = []) -> nth_error ts (List.length before) = Some (TUnary w)) /\
  (~ unary_here c parse (last_of None before) w (after = []) -> nth_error ts (List.length before) = Some (TBinary w)).
Proof.
  intros V W c parse s ws ts Hc Hl H before w after E Ho Hu. destruct (C13_one_token_per_word V W c parse s ws ts Hc Hl H) as [_ P].
  destruct (P before w after E) as (t & -> & T). destruct (stands_unary c parse _ _ _ _ T Ho Hu) as [[-> U]|[-> U]]; split; intros X; try reflexivity; contradiction.
Qed.
Print Assumptions C14_decision.

(** For an operator that is both, such as the minus sign: binary after a number, variable, constant, closing symbol; *)
Theorem C14_after_operand : forall V W (c : ctx V W) parse s ws ts, complex_number (cfg c) = false ->
  lexes s ws -> tokenize c parse dsplitter s = Ok ts -> forall before p w after, ws = before ++ p :: w :: after ->
  operator_only c parse w -> has_notation c w Prefix -> binary c w -> ends_operand c parse p \/ starts_unary_only c p ->
  nth_error ts (S (List.length before)) = Some (TBinary w).
Proof.
  intros V W c parse s ws ts Hc Hl H before p w after E Ho Hn Hb Hp.
  assert (E' : ws = (before ++ [p]) ++ w :: after) by (rewrite <- app_assoc; exact E).
  destruct (C14_decision V W c parse s ws ts Hc Hl H (before ++ [p]) w after E' Ho (or_intror Hb)) as [_ D].
  replace (S (List.length before)) with (List.length (before ++ [p])) by (rewrite app_length; simpl; lia). apply D.
  assert (L : last_of None (before ++ [p]) = Some p) by (unfold last_of; rewrite rev_app_distr; reflexivity). rewrite L.
  intros [[(f & Hf & Hx) _]|(_ & _ & X)].
  - destruct Hn as (g & Hg & Hy). congruence.
  - destruct (X p eq_refl) as (Y1 & Y2 & _). destruct Hp; contradiction.
Qed.
Print Assumptions C14_after_operand.

(** ... a sign at the start, after an open symbol or comma, and after another operator. *)
Theorem C14_sign : forall V W (c : ctx V W) parse s ws ts, complex_number (cfg c) = false ->
  lexes s ws -> tokenize c parse dsplitter s = Ok ts -> forall before w after, ws = before ++ w :: after -> after <> [] ->
  operator_only c parse w -> has_notation c w Prefix ->
  before = [] \/ (exists before' p, before = before' ++ [p] /\
    ((nameless c parse p /\ (p = lit "," \/ exists g, p = [grouping_open g])) \/
     (operator_only c parse p /\ (ident_word p \/ operator_word p) /\ sign_may_follow c p))) ->
  nth_error ts (List.length before) = Some (TUnary w).
Proof.
  intros V W c parse s ws ts Hc Hl H before w after E Ha Ho Hn Hp.
  assert (Hu : unary c w) by (destruct Hn as (f & Hf & _); unfold unary; congruence).
  destruct (C14_decision V W c parse s ws ts Hc Hl H before w after E Ho (or_introl Hu)) as [D _]. apply D. right. split; [exact Hn|]. split; [exact Ha|].
  intros p Hl'. destruct Hp as [->|(before' & p' & -> & Hp)]; [discriminate|].
  assert (L : last_of None (before' ++ [p']) = Some p') by (unfold last_of; rewrite rev_app_distr; reflexivity). rewrite L in Hl'. injection Hl' as <-.
  assert (O : opens c parse (Some p')).
  { destruct Hp as [[N [-> |(g & ->)]]|(P1 & P2 & P3)]; [apply opens_comma; exact N|apply opens_open; exact N|apply opens_op; assumption]. }
  destruct (O p' eq_refl) as (O1 & O2 & O3 & _). auto.
Qed.
Print Assumptions C14_sign.

(** A postfix operator is unary exactly after a number, variable, constant or closing symbol. *)
Theorem C14_postfix : forall V W (c : ctx V W) parse s ws ts, complex_number (cfg c) = false ->
  lexes s ws -> tokenize c parse dsplitter s = Ok ts -> forall before w after, ws = before ++ w :: after ->
  operator_only c parse w -> has_notation c w Postfix ->
  (nth_error ts (List.length before) = Some (TUnary w) <-> exists before' p, before = before' ++ [p] /\ ends_operand c parse p).
Proof.
  intros V W c parse s ws ts Hc Hl H before w after E Ho Hn.
  assert (Hu : unary c w) by (destruct Hn as (f & Hf & _); unfold unary; congruence).
  destruct (C13_one_token_per_word V W c parse s ws ts Hc Hl H) as [_ P]. destruct (P before w after E) as (t & -> & T).
  destruct (stands_unary c parse _ _ _ _ T Ho (or_introl Hu)) as [[-> U]|[-> U]].
  - split; [|reflexivity]. intros _. destruct U as [(_ & p & Hp & He)|((f & Hf & Hx) & _)]; [|destruct Hn as (g & Hg & Hy); congruence].
    destruct before as [|a before _] using rev_ind; [discriminate|]. unfold last_of in Hp. rewrite rev_app_distr in Hp. simpl in Hp. injection Hp as ->. eauto.
  - split; [discriminate|]. intros (before' & p & -> & He). exfalso. apply U. left. split; [exact Hn|]. exists p. split; [|exact He]. unfold last_of. rewrite rev_app_distr. reflexivity.
Qed.
Print Assumptions C14_postfix.

Example C14_case : std_tokens "- 2 - ( - 3 ! - - x )" =
  Ok [TUnary (lit "-"); TNumber 2%Z; TBinary (lit "-"); TOpen 40%N; TUnary (lit "-"); TNumber 3%Z; TUnary (lit "!"); TBinary (lit "-"); TUnary (lit "-"); TUnknown (lit "x"); TClose 41%N].
Proof. vm_compute. reflexivity. Qed.

(** That a sign is read after every operator is false: not after one whose first character is a unary-only operator. With
    [!=] registered, [2 != -3] is rejected and [2 != (-3)] is not. *)
Theorem C14_sign_after_operator_refuted : exists (c : ctx Z unit) o, binary c o /\ has_notation c (lit "-") Prefix /\
  fst (eval c (parse_int i64) dsplitter true (lit "2 != -3") tt) = Err InvalidExpression /\ fst (eval c (parse_int i64) dsplitter true (lit "2 != (-3)") tt) = Ok 1%Z.
Proof.
  pose (ne := BFunc (lit "!=") [] 1%N LeftA (fun x y => ret (W := unit) (if Z.eqb x y then 0 else 1)%Z)).
  exists (Ctx plain_config (fun _ => None) (fun _ => None) (fun _ => None) (get_unary (std_ctx plain_config)) (fun o => if str_eqb o (lit "!=") then Some ne else get_binary (std_ctx plain_config) o)), (lit "!=").
  split; [discriminate|]. split; [apply has_notationb_sound; vm_compute; reflexivity|]. split; vm_compute; reflexivity.
Qed.
Print Assumptions C14_sign_after_operator_refuted.

(** ** C15 *)

(** A text whose words spell the tokens of an expression tokenizes to these tokens. *)
Theorem C15_text_to_tokens : forall V W (c : ctx V W) parse e s, wf c e -> text_of c parse e s -> tokenize c parse dsplitter s = Ok (print e).
Proof. exact (fun V W c parse e s => @tokenize_text V W c parse e s). Qed.
Print Assumptions C15_text_to_tokens.

(** In particular if the words are written with white space between them. *)
Theorem C15_spaced : forall V W (c : ctx V W) parse e ws s, wf c e -> Forall a_word ws -> Forall2 (spells c parse) (print e) ws ->
  readable c e -> (complex_number (cfg c) = true -> ~ In (lit "i") ws) -> written ws s -> tokenize c parse dsplitter s = Ok (print e).
Proof.
  intros V W c parse e ws s Hw Ha Hs Hd Hi Hx. apply C15_text_to_tokens; [exact Hw|]. exists ws. split; [apply written_lexes; assumption|auto].
Qed.
Print Assumptions C15_spaced.

(** With any other splitter it is the same: what counts is the words. *)
Theorem C15_any_splitter : forall V W (c : ctx V W) parse splitter e s, wf c e -> ~ blank s -> Forall2 (spells c parse) (print e) (splitter s) ->
  readable c e -> (complex_number (cfg c) = true -> ~ In (lit "i") (splitter s)) -> tokenize c parse splitter s = Ok (print e).
Proof.
  intros V W c parse splitter e s Hw Hb Hs Hd Hi. rewrite tokenize_not_blank by exact Hb. apply loop_complete. apply text_stands; assumption.
Qed.
Print Assumptions C15_any_splitter.

Definition C15_tree : expr Z :=
  EBin (lit "-") (EBin (lit "+") (ENum 2%Z) (EBin (lit "*") (EPre (lit "-") (EConst (lit "PI"))) (EPost (EGroup Parenthesis (EBin (lit "-") (ENum 4%Z) (ENum 1%Z))) (lit "!"))))
    (ECall (lit "max") Parenthesis [ENum 1%Z; EBin (lit "mod") (EPre (lit "-") (ENum 2%Z)) (ENum 3%Z)]).
Example C15_case : wf (std_ctx plain_config) C15_tree /\ text_of (std_ctx plain_config) (parse_int i64) C15_tree (lit "2+ -PI * (4-1)! - max(1, -2 mod 3)") /\
  std_tokens "2+ -PI * (4-1)! - max(1, -2 mod 3)" = Ok (print C15_tree) /\ std_eval "2+ -PI * (4-1)! - max(1, -2 mod 3)" = Ok (-17)%Z.
Proof.
  split; [apply wfb_sound; vm_compute; reflexivity|]. split; [apply (text_sound Z.eqb (fun x y => proj1 (Z.eqb_eq x y))); vm_compute; reflexivity|]. split; vm_compute; reflexivity.
Qed.
(** Written without spaces between operators it is another text: operator characters stick together. And a second
    postfix operator is taken for a binary one. *)
Theorem C15_any_spacing_refuted : std_tokens "2 * -3" = Ok [TNumber 2%Z; TBinary (lit "*"); TUnary (lit "-"); TNumber 3%Z] /\
  std_tokens "2*-3" = Ok [TNumber 2%Z; TUnknown (lit "*-"); TNumber 3%Z] /\
  std_eval "3!+2" = Err InvalidInput /\ std_eval "3! +2" = Ok 8%Z /\ std_eval "max(1,-2)" = Err InvalidInput /\ std_eval "max(1, -2)" = Ok 1%Z.
Proof. vm_compute. repeat split. Qed.
Print Assumptions C15_any_spacing_refuted.
Theorem C15_double_postfix_refuted : wf (std_ctx plain_config) (EPost (EPost (ENum 3%Z) (lit "!")) (lit "!")) /\
  eval_tokens (std_ctx plain_config) true (print (EPost (EPost (ENum 3%Z) (lit "!")) (lit "!"))) tt = (Ok 720%Z, tt) /\
  std_eval "3 ! !" = Err InvalidExpression /\ std_eval "(3!)!" = Ok 720%Z.
Proof. split; [apply wfb_sound; vm_compute; reflexivity|]. vm_compute. repeat split. Qed.
Print Assumptions C15_double_postfix_refuted.

(** ** C16 *)

(** Evaluating a text of an expression is evaluating the expression. *)
Theorem C16_eval_text : forall V W (c : ctx V W) parse dbg e s (w : W), wf c e -> text_of c parse e s ->
  eval c parse dsplitter dbg s w = denote c e w.
Proof.
  intros V W c parse dbg e s w Hw Ht. unfold eval, bind, lift. rewrite (C15_text_to_tokens V W c parse e s Hw Ht). apply eval_tokens_print. exact Hw.
Qed.
Print Assumptions C16_eval_text.

Theorem C16_any_splitter : forall V W (c : ctx V W) parse splitter dbg e s (w : W), wf c e -> ~ blank s -> Forall2 (spells c parse) (print e) (splitter s) ->
  readable c e -> (complex_number (cfg c) = true -> ~ In (lit "i") (splitter s)) -> eval c parse splitter dbg s w = denote c e w.
Proof.
  intros V W c parse splitter dbg e s w Hw Hb Hs Hd Hi. unfold eval, bind, lift. rewrite (C15_any_splitter V W c parse splitter e s Hw Hb Hs Hd Hi). apply eval_tokens_print. exact Hw.
Qed.
Print Assumptions C16_any_splitter.

(** From the string to the number: an arithmetic expression written in the default checked context of an integer type
    evaluates to its value over the unbounded integers if all parts fit in the type, and else to [Overflow] or
    [DivisionByZero]. *)
Theorem C16_integer_text : forall W t dbg L (rnd : W -> f64 * W) docs E cf d, (0 < bits t)%Z ->
  checked_context (int_num t dbg) L rnd docs E dbg cf = Ok d -> forall e s ws w,
  wf (to_ctx E d) e -> arithmetic e -> literals_fit t e -> Forall2 plain_word (print e) ws -> lexes s ws ->
  (all_fit t e /\ exists v, ideal e = Some v /\ eval (to_ctx E d) (parse_int t) dsplitter dbg s w = (Ok v, w)) \/
  (~ all_fit t e /\ exists k, In k [Overflow; DivisionByZero] /\ eval (to_ctx E d) (parse_int t) dsplitter dbg s w = (Err k, w)).
Proof.
  intros W t dbg L rnd docs E cf d Hb H e s ws w Hw Ha Hl Hs Hx.
  pose proof (plain_text t dbg L rnd docs E cf d H Hb e s ws Ha Hl Hs Hx) as T.
  rewrite (C16_eval_text _ _ _ _ dbg e s w Hw T), <- (eval_tokens_print (to_ctx E d) dbg e w Hw).
  exact (C25_expressions W t dbg L rnd docs E cf d H e w Hw Ha Hl).
Qed.
Print Assumptions C16_integer_text.

Example C16_case : let e := EBin (lit "-") (EBin (lit "*") (ENum 12%Z) (EGroup Parenthesis (EBin (lit "+") (ENum 3%Z) (EPre (lit "-") (ENum 4%Z))))) (EBin (lit "mod") (ENum 7%Z) (ENum 4%Z)) in
  wf (std_ctx plain_config) e /\ arithmetic e /\ literals_fit i64 e /\ all_fit i64 e /\ ideal e = Some (-15)%Z /\
  lexes (lit "12*(3 + -4)-7 mod 4") (words ["12"; "*"; "("; "3"; "+"; "-"; "4"; ")"; "-"; "7"; "mod"; "4"]%string) /\
  Forall2 plain_word (print e) (words ["12"; "*"; "("; "3"; "+"; "-"; "4"; ")"; "-"; "7"; "mod"; "4"]%string) /\ std_eval "12*(3 + -4)-7 mod 4" = Ok (-15)%Z.
Proof.
  intros e. assert (D : forall s v, parse_int i64 s = Some v -> match s with c :: _ => negb (N.eqb c 43 || N.eqb c 45) | [] => false end = true -> digits 10 s v /\ s <> []).
  { intros s v H Hs. apply parse_int_spec in H; [|reflexivity]. destruct H as [H _]. inversion H; subst; [auto|discriminate|discriminate]. }
  split; [apply wfb_sound; vm_compute; reflexivity|]. split; [simpl; tauto|]. split; [cbn; unfold fits; cbn; lia|]. split.
  { cbn. repeat split; try (eexists; split; [reflexivity|]; unfold fits; cbn; lia); try (intros X; discriminate X). intros _. exists 7%Z, 4%Z. split; [reflexivity|]. split; [reflexivity|]. unfold fits; cbn; lia. }
  split; [reflexivity|]. split; [apply C11_maximal_munch; reflexivity|]. split; [|vm_compute; reflexivity].
  repeat (constructor; [first [reflexivity|apply D; reflexivity]|]). constructor.
Qed.
Example C16_overflow : std_eval "9223372036854775807 + 1" = Err Overflow /\ std_eval "1 / (2 - 2)" = Err DivisionByZero /\
  std_eval "9223372036854775808" = Err InvalidInput.
Proof. vm_compute. repeat split. Qed.

(** No panic from any ASCII string that mentions neither [!] nor [avg], in the default checked context of any number type. *)
Theorem C16_ascii_strings_never_panic : forall V W (n : num V) L (rnd : W -> f64 * W) docs E dbg cf d parse,
  checked_context n L rnd docs E dbg cf = Ok d -> forall s ws w, ascii s -> lexes s ws ->
  (forall x, In x ws -> eq_ignore_case E x (lit "!") = false /\ eq_ignore_case E x (lit "avg") = false) ->
  fst (eval (to_ctx E d) parse dsplitter dbg s w) <> Panic.
Proof.
  intros V W n L rnd docs E dbg cf d parse H s ws w Ha Hl Hx. unfold eval, bind, lift.
  assert (Sh : Forall shipped default_splitter) by (apply splitters_shipped; left; reflexivity).
  pose proof (C12_ascii_no_panic V W (to_ctx E d) parse default_splitter Sh s Ha) as NP. fold dsplitter in NP.
  destruct (tokenize (to_ctx E d) parse dsplitter s) as [ts|k|] eqn:Et; [|discriminate|congruence]. apply C13_words_to_tokens in Et. destruct Et as [_ Et].
  unfold dsplitter in Et. rewrite (lexes_default s ws Hl) in Et.
  assert (G : forall prev l ts, stand_for (to_ctx E d) parse prev l ts -> forall x, In (TUnary x) ts \/ In (TFunction x) ts -> In x l).
  { clear. intros prev l ts S. induction S as [prev|prev ws ts Hn _ IH|prev s ws t ts Ht Hk Hi _ IH|prev s ws v ts Hx _ _ _ IH]; intros x Hx'.
    - destruct Hx' as [[]|[]].
    - right. apply IH. exact Hx'.
    - destruct Hx' as [[X|X]|[X|X]]; try (right; apply IH; auto; fail); subst t; inversion Ht; subst; left; reflexivity.
    - right. right. apply IH. destruct Hx' as [[X|X]|[X|X]]; try discriminate; auto. }
  apply (C28_eval_never_panics V W n L rnd docs E dbg cf d H ts w).
  - intros x X. apply (Hx x). apply (G None ws ts Et x). auto.
  - intros x X. apply (Hx x). apply (G None ws ts Et x). auto.
Qed.
Print Assumptions C16_ascii_strings_never_panic.
Example C16_no_panic_case : ascii (lit ")3 max(*sin(") /\ std_eval ")3 max(*sin(" = Err InvalidExpression.
Proof. split; [apply Forall_forall; intros x Hx; cbn in Hx; repeat (destruct Hx as [<-|Hx]; [reflexivity|]); contradiction|vm_compute; reflexivity]. Qed.

(** ** C17 *)

(** White space between two words may be replaced by any other white space; *)
Theorem C17_between : forall V W (c : ctx V W) parse rules, In rules splitters -> forall a b s1 s2, blank s1 -> blank s2 -> s1 <> [] -> s2 <> [] ->
  tokenize c parse (split_into_tokens rules) (a ++ s1 ++ b) = tokenize c parse (split_into_tokens rules) (a ++ s2 ++ b) /\
  forall dbg w, eval c parse (split_into_tokens rules) dbg (a ++ s1 ++ b) w = eval c parse (split_into_tokens rules) dbg (a ++ s2 ++ b) w.
Proof.
  intros V W c parse rules Hr a b s1 s2 B1 B2 N1 N2. destruct (splitters_ok rules Hr) as (T & Lo & K).
  assert (X : tokenize c parse (split_into_tokens rules) (a ++ s1 ++ b) = tokenize c parse (split_into_tokens rules) (a ++ s2 ++ b)).
  { apply tokenize_same; [rewrite !blank_app; tauto|]. rewrite !(split_spaced rules T Lo K) by assumption. reflexivity. }
  split; [exact X|]. intros dbg w. unfold eval. rewrite X. reflexivity.
Qed.
Print Assumptions C17_between.

(** ... at the ends it does not matter; *)
Theorem C17_ends : forall V W (c : ctx V W) parse rules, In rules splitters -> forall s s1 s2, blank s1 -> blank s2 ->
  tokenize c parse (split_into_tokens rules) (s1 ++ s ++ s2) = tokenize c parse (split_into_tokens rules) s /\
  forall dbg w, eval c parse (split_into_tokens rules) dbg (s1 ++ s ++ s2) w = eval c parse (split_into_tokens rules) dbg s w.
Proof.
  intros V W c parse rules Hr s s1 s2 B1 B2. destruct (splitters_ok rules Hr) as (T & Lo & K).
  assert (X : tokenize c parse (split_into_tokens rules) (s1 ++ s ++ s2) = tokenize c parse (split_into_tokens rules) s).
  { apply tokenize_same; [rewrite !blank_app; tauto|]. rewrite (split_blank rules T K) by assumption. destruct s2 as [|x s2]; [rewrite app_nil_r; reflexivity|].
    rewrite <- (app_nil_r (x :: s2)). rewrite (split_spaced rules T Lo K) by (assumption || discriminate). cbn. apply app_nil_r. }
  split; [exact X|]. intros dbg w. unfold eval. rewrite X. reflexivity.
Qed.
Print Assumptions C17_ends.

(** ... and two strings with the same words are the same expression. *)
Theorem C17_same_words : forall V W (c : ctx V W) parse s s' ws, lexes s ws -> lexes s' ws ->
  tokenize c parse dsplitter s = tokenize c parse dsplitter s' /\ forall dbg w, eval c parse dsplitter dbg s w = eval c parse dsplitter dbg s' w.
Proof.
  intros V W c parse s s' ws H H'. assert (X : tokenize c parse dsplitter s = tokenize c parse dsplitter s').
  { apply tokenize_same; [|unfold dsplitter; rewrite (lexes_default s ws H), (lexes_default s' ws H'); reflexivity].
    assert (G : forall s s' ws, lexes s ws -> lexes s' ws -> blank s -> blank s').
    { clear. intros s s' ws H H' B. pose proof (lexes_blank s ws H B) as E. subst ws. apply trim_blank. destruct (trim s') eqn:Et; [reflexivity|]. exfalso.
      assert (Z : forall s ws, lexes s ws -> ws = [] -> blank s). { clear. induction 1; intros Ez; try discriminate; [constructor|]. constructor; [assumption|apply IHlexes; exact Ez]. }
      specialize (Z s' [] H' eq_refl). apply trim_blank in Z. congruence. }
    split; eapply G; eassumption. }
  split; [exact X|]. intros dbg w. unfold eval. rewrite X. reflexivity.
Qed.
Print Assumptions C17_same_words.

(** Removing white space altogether may change the words. *)
Theorem C17_removal_refuted : exists a b, std_eval (a ++ " " ++ b) = Ok (-6)%Z /\ std_eval (a ++ b) = Err InvalidInput.
Proof. exists "2*"%string, "-3"%string. split; vm_compute; reflexivity. Qed.
Print Assumptions C17_removal_refuted.

Example C17_case : std_eval "2 * -3" = Ok (-6)%Z /\ fst (eval (std_ctx plain_config) (parse_int i64) dsplitter true ([12288; 9]%N ++ lit "2" ++ [160%N] ++ lit "*" ++ [10%N] ++ lit "-3 ") tt) = Ok (-6)%Z /\
  std_eval "2+3*4" = std_eval " 2 + 3 * 4 ".
Proof. vm_compute. repeat split. Qed.

(** ** C48 *)

(** An integer type reads exactly the numerals (an optional sign, decimal digits) whose value it can represent. *)
Theorem C48_numerals : forall t s v, (0 < bits t)%Z -> (parse_int t s = Some v <-> numeral 10 (signed t) s v /\ fits t v).
Proof. exact parse_int_spec. Qed.
Print Assumptions C48_numerals.

(** A number word of an expression becomes a number exactly if it has no decimal point and fits; otherwise, over
    integers, it is left as an unknown word, and evaluation fails. *)
Theorem C48_number_words : forall t s, (0 < bits t)%Z -> number_word s ->
  (In point s -> parse_int t s = None) /\ (~ In point s -> exists v, digits 10 s v /\ parse_int t s = if in_range t v then Some v else None).
Proof.
  intros t s Hb Hn.
  assert (Dg : forall l, Forall digit l -> exists v, digits 10 l v).
  { intros l. induction l as [|x l IH] using rev_ind; intros F; [exists 0%Z; constructor|]. apply Forall_app in F. destruct F as [F Fx]. inversion Fx as [|? ? Hx _]; subst. destruct (IH F) as [v Hv].
    exists (10 * v + (Z.of_N x - 48))%Z. apply digits_more; [exact Hv|unfold digit in Hx; lia|lia]. }
  split.
  - intros Hp. destruct (parse_int t s) as [v|] eqn:E; [|reflexivity]. exfalso. apply (parse_int_spec t s v Hb) in E. destruct E as [E _].
    assert (Hnp : forall l v', digits 10 l v' -> ~ In point l) by (intros l v' D X; pose proof (digits_char 10 l v' point ltac:(lia) D X); unfold point in *; lia).
    inversion E as [l v' D Ne|l v' D Ne|l v' D Ne Sg]; subst; [exact (Hnp _ _ D Hp)| |]; (destruct Hp as [Hp|Hp]; [discriminate Hp|exact (Hnp _ _ D Hp)]).
  - intros Hp. destruct Hn as [[Hne Hd]|(a & b & -> & _)]; [|exfalso; apply Hp; apply in_or_app; right; left; reflexivity]. destruct (Dg s Hd) as [v Hv]. exists v. split; [exact Hv|].
    destruct (in_range t v) eqn:F.
    + apply (parse_int_spec t s v Hb). split; [apply numeral_plain; assumption|apply fits_range; exact F].
    + destruct (parse_int t s) as [v'|] eqn:E; [|reflexivity]. apply (parse_int_spec t s v' Hb) in E. destruct E as [E F']. exfalso.
      assert (v' = v).
      { assert (U : forall l v1 v2, digits 10 l v1 -> digits 10 l v2 -> v1 = v2).
        { intros l v1 v2 D1. revert v2. induction D1 as [|l v1 d c D1 IH Hd1 Hc1]; intros v2 D2; inversion D2 as [E2|l2 v3 d2 c2 D3 Hd3 Hc3 E2 E3].
          - reflexivity. - destruct l2; discriminate. - destruct l; discriminate.
          - apply app_inj_tail in E2. destruct E2 as [-> ->]. rewrite (IH _ D3). lia. }
        inversion E as [l v1 D Ne|l v1 D Ne|l v1 D Ne Sg]; subst; [exact (U _ _ _ D Hv)| |]; exfalso;
          match type of Hd with Forall digit (?c :: _) => inversion Hd as [|? ? Hc _]; subst; unfold digit in Hc; lia end. }
      subst v'. apply fits_range in F'. congruence.
Qed.
Print Assumptions C48_number_words.
Example C48_case : parse_int i8 (lit "-128") = Some (-128)%Z /\ parse_int i8 (lit "128") = None /\ parse_int i8 (lit "+007") = Some 7%Z /\ parse_int u8 (lit "-1") = None /\
  parse_int i64 (lit "-") = None /\ parse_int i64 (lit "1_000") = None /\ parse_int i64 (lit "") = None.
Proof. vm_compute. repeat split. Qed.
