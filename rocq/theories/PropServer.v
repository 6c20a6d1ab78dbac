(** * The server and the command line (C37, C38, C60-C63)

    Vocabulary: SpecServer (number types, the variables of a request, clients), SpecParse (numerals). *)
From Coq Require Import List NArith ZArith Bool Arith Lia String Permutation.
From Verif Require Import ModelBase ModelContext ModelEvaluator ModelText ModelSplit ModelTokenizer ModelDefault ModelFloat ModelNum ModelOps ModelParse ModelBinary ModelDecimal ModelComplex ModelStd
  SpecTokens SpecText SpecExpr SpecOps SpecParse SpecLex SpecTokenizer SpecRepl ProofText ProofDefault ProofTokens ProofTokens2 ProofLex ProofTok2 ProofRepl ProofFrame2 ProofParse
  ProofBuild ProofCtx ProofDecimal ProofBinary ProofComplex ProofDecRef PropLex PropOps PropFrame ProofOps3.
From Verif Require PropComplex.
From Verif Require Import ModelServer SpecServer ProofServer.
Import ListNotations.

(** ** C37: responses *)

(** Every response carries either a result or an error, never both or neither: JSON with exactly one of the two, or, only for an
    evaluation that succeeded and was asked for by [only_result=true], the bare result. The status is 400 for bodies that are no
    requests, which are not evaluated, and 200 otherwise. *)
Theorem C37_exactly_one : forall D W (sv : service D W) E dbg b only w status r w',
  endpoint sv E dbg b only w = (Ok (status, r), w') ->
  (status = 400%N /\ w' = w /\ (forall q, b <> Received q) /\ exists m, r = Json (Evaluated None (Some m))) \/
  (status = 200%N /\ exists q, b = Received q /\
    ((exists s, eval_expression sv E dbg q w = (Ok (inl s), w') /\ r = if match only with Some true => true | _ => false end then Plain s else Json (Evaluated (Some s) None)) \/
     (exists m, eval_expression sv E dbg q w = (Ok (inr m), w') /\ r = Json (Evaluated None (Some m))))).
Proof.
  intros D W sv E dbg b only w status r w' H. destruct b as [|path|q]; cbn [endpoint] in H.
  - injection H as <- <- <-. left. repeat split; [intros q; discriminate|eexists; reflexivity].
  - injection H as <- <- <-. left. repeat split; [intros q; discriminate|eexists; reflexivity].
  - unfold bind, ret in H. destruct (eval_expression sv E dbg q w) as [[[s|m]|k|] w1] eqn:Q; try discriminate; injection H as <- <- <-; right; (split; [reflexivity|]); exists q; (split; [reflexivity|]).
    + left. exists s. split; [exact Q|]. unfold respond. destruct only as [[|]|]; reflexivity.
    + right. exists m. split; [exact Q|reflexivity].
Qed.
Print Assumptions C37_exactly_one.

(** A response is always given unless the evaluation panics. *)
Theorem C37_answers : forall D W (sv : service D W) E dbg b only w,
  (exists a, fst (endpoint sv E dbg b only w) = Ok a) \/ (exists q, b = Received q /\ fst (eval_expression sv E dbg q w) = Panic).
Proof.
  intros D W sv E dbg b only w. destruct b as [|path|q]; cbn [endpoint]; [left; eexists; reflexivity..|].
  destruct (served sv E dbg (asked q)) as (V & k & S). unfold bind, ret. rewrite (dispatch sv E dbg _ V k S q w eq_refl).
  destruct (k_context k (server_settings (asked q))) as [d|kk|] eqn:Hd; [|right; exists q; rewrite (dispatch sv E dbg _ V k S q w eq_refl), Hd; auto..].
  pose proof (dispatch sv E dbg _ V k S q w eq_refl) as X. rewrite Hd in X. rewrite <- X.
  unfold eval_typed in X. destruct (set_variables _ _ _ _ _ _) as [[d'|m]|k1|] eqn:Sv; [|left; rewrite X; eexists; reflexivity|right; exists q; rewrite X; auto..].
  destruct (eval _ _ _ _ _ _) as [[v|k1|] w1]; [left; rewrite X; eexists; reflexivity..|right; exists q; rewrite X; auto].
Qed.
Print Assumptions C37_answers.

(** What is evaluated: the expression, in the context of the type asked for (decimal by default), with exactly the variables of the
    request, each worth the number its text stands for. If a name or a text is not acceptable the answer is an error and nothing is
    evaluated. *)
Theorem C37_values : forall D W (sv : service D W) E dbg q t V (k : kind V W), asked q = t -> serves sv E dbg t V k -> NoDup (map fst (given q)) ->
  exists d, k_context k (server_settings t) = Ok d /\ (forall x, get_variable (to_ctx E d) x = None) /\ forall w,
  (Forall (accepted sv E dbg (k_read k) d) (given q) -> exists d', with_variables sv E (k_read k) d (given q) d' /\
     eval_expression sv E dbg q w = answer_to (k_show k) (eval (to_ctx E d') (k_parse k) (split_into_tokens (k_rules k)) dbg (q_expression q) w)) /\
  (~ Forall (accepted sv E dbg (k_read k) d) (given q) -> exists m, eval_expression sv E dbg q w = (Ok (inr m), w)).
Proof.
  intros D W sv E dbg q t V k Ht S Nd. destruct (contexts_made sv E dbg t V k S (server_settings t)) as (d & Hd). exists d. split; [exact Hd|].
  split. { intros x. unfold to_ctx. cbn [get_variable]. rewrite (no_variables sv E dbg t V k S _ d Hd). reflexivity. }
  intros w. rewrite (dispatch sv E dbg t V k S q w Ht), Hd. split.
  - intros F. apply typed_ok; assumption.
  - intros F. apply typed_not_ok. exact F.
Qed.
Print Assumptions C37_values.

(** The order in which the variables are met does not matter: the same answer with the same effects, or both times an error without
    any evaluation. *)
Theorem C37_order : forall D W (sv : service D W) E dbg e t vars vars' w, NoDup (map fst vars) -> Permutation vars vars' ->
  let a := eval_expression sv E dbg (Request e t (Some vars)) w in let a' := eval_expression sv E dbg (Request e t (Some vars')) w in
  a = a' \/ exists m m', a = (Ok (inr m), w) /\ a' = (Ok (inr m'), w).
Proof.
  intros D W sv E dbg e t vars vars' w Nd P.
  assert (Nd' : NoDup (map fst vars')) by (eapply Permutation_NoDup; [apply Permutation_map, P|exact Nd]).
  set (q := Request e t (Some vars)). set (q' := Request e t (Some vars')). cbv zeta.
  destruct (served sv E dbg (asked q)) as (V & k & S).
  destruct (C37_values D W sv E dbg q _ V k eq_refl S Nd) as (d & Hd & _ & H). destruct (C37_values D W sv E dbg q' _ V k eq_refl S Nd') as (d2 & Hd2 & _ & H2).
  assert (d2 = d) by (change (asked q') with (asked q) in Hd2; congruence). subst d2. destruct (H w) as [Ha Hb], (H2 w) as [Ha2 Hb2].
  destruct (acceptables_dec sv E dbg (k_read k) d (given q)) as [F|F].
  - destruct (Ha F) as (d1 & W1 & ->). destruct (Ha2 (Permutation_Forall P F)) as (d2 & W2 & ->). left. f_equal.
    exact (with_variables_perm sv E dbg (k_read k) d vars vars' d1 d2 P W1 W2 _ _ _ _).
  - destruct (Hb F) as (m & Hm). destruct Hb2 as (m' & Hm'). { intros F'. apply F. exact (Permutation_Forall (Permutation_sym P) F'). }
    right. eauto.
Qed.
Print Assumptions C37_order.

(** Which error is reported can depend on the order: with one variable named like a constant and another that is no number. *)
Definition example_service : service dec unit :=
  Service dec unit ref_lib 200 no_libm PropComplex.no_clib no_random false 200 (fun _ => None) (fun _ => None) (fun _ => None) (fun _ => []) (fun _ => lit "0.5") (fun _ => []).
Definition ask (e : string) (t : number_type) (vars : list (string * variable)) : request :=
  Request (lit e) (Some t) (Some (map (fun p => (lit (fst p), snd p)) vars)).
Definition reply (q : request) : res eval_result := fst (eval_expression example_service std_env true q tt).
Theorem C37_message_order_refuted : exists vars vars', NoDup (map fst vars) /\ Permutation vars vars' /\
  let a vs := eval_expression example_service std_env true (Request (lit "1") (Some NInteger) (Some vs)) tt in
  fst (a vars) = Ok (inr (Failure Unknown_)) /\ fst (a vars') = Ok (inr (NotANumber (lit "zz"))).
Proof.
  exists [(lit "PI", VString (lit "1")); (lit "a", VString (lit "zz"))], [(lit "a", VString (lit "zz")); (lit "PI", VString (lit "1"))].
  split; [|split; [apply perm_swap|vm_compute; split; reflexivity]].
  cbn [map fst]. constructor; [|constructor; [intros []|constructor]]. intros [X|[]]. discriminate.
Qed.
Print Assumptions C37_message_order_refuted.

(** The hypotheses are met: two variables, implicit multiplication, brackets; an integer request refuses 0.5; the variables of a binary
    request are read as decimal integers, so [b101] is refused there although it is a number in expressions. *)
Example C37_case : reply (ask "2x + [y - 1](3)" NInteger [("x", VString (lit "20")); ("y", VString (lit "-4"))]%string) = Ok (inl (lit "25")) /\
  reply (ask "x" NInteger [("x", VNumber f_zero)]%string) = Ok (inr (NotANumber (lit "0.5"))) /\
  reply (ask "x or b10" NBinary [("x", VString (lit "5"))]%string) = Ok (inl (lit "111")) /\
  reply (ask "x or b10" NBinary [("x", VString (lit "b101"))]%string) = Ok (inr (NotANumber (lit "b101"))) /\
  reply (ask "1 / 0" NInteger []) = Ok (inr (Failure DivisionByZero)) /\ reply (ask "y" NInteger [("x", VString (lit "5"))]%string) = Ok (inr (Failure InvalidInput)) /\
  fst (endpoint example_service std_env true (Received (ask "6*7" NInteger [])) (Some true) tt) = Ok (200%N, Plain (lit "42")) /\
  fst (endpoint example_service std_env true (Received (ask "6*7" NInteger [])) None tt) = Ok (200%N, Json (Evaluated (Some (lit "42")) None)) /\
  fst (endpoint example_service std_env true (Received (ask "6*" NInteger [])) (Some true) tt) = Ok (200%N, Json (Evaluated None (Some (Failure InvalidExpression)))) /\
  fst (endpoint example_service std_env true (NotARequest (lit "type")) None tt) = Ok (400%N, Json (Evaluated None (Some (Text (lit "Invalid value type at path: type"))))).
Proof. repeat split; vm_compute; reflexivity. Qed.

(** ** C38: rate limiting *)

(** Two clients get the same identifier exactly when they are known by the same address or cookie; those known by none get none. *)
Theorem C38_identity : forall r r' a a', known_by r a -> known_by r' a' -> Forall byte a -> Forall byte a' ->
  (exists i, get_rate_limit_identifier r = Some i) /\ (get_rate_limit_identifier r = get_rate_limit_identifier r' <-> a = a').
Proof.
  assert (K : forall r a, known_by r a -> internal_get_identifier r = Some a).
  { intros r a H. destruct H as [a p c|a c|v h Hh]; try reflexivity. cbn. destruct h as [[|]|]; [reflexivity|congruence|reflexivity]. }
  intros r r' a a' H H' B B'. unfold get_rate_limit_identifier. rewrite (K _ _ H), (K _ _ H'). cbn [option_map]. split; [eauto|]. split; [|congruence].
  intros X. injection X. apply identifier_inj; assumption.
Qed.
Print Assumptions C38_identity.
Theorem C38_unknown : forall r, get_rate_limit_identifier r = None <-> forall a, ~ known_by r a.
Proof.
  intros [ra pa ic]. unfold get_rate_limit_identifier, internal_get_identifier. cbn [remote_addr peer_addr id_cookie]. split.
  - intros H a K. inversion K; subst; cbn in H; try discriminate. destruct h as [[|]|]; try discriminate. congruence.
  - intros H. destruct ra as [a|]; [exfalso; apply (H a); constructor|]. destruct pa as [a|]; [exfalso; apply (H a); constructor|].
    destruct ic as [[v h]|]; [|reflexivity]. destruct h as [[|]|]; [|reflexivity|]; exfalso; apply (H v); constructor; discriminate.
Qed.
Print Assumptions C38_unknown.

(** Identifiers are made of letters, digits, [+] and [/], four characters for three bytes; those generated, of 22 characters, are
    different for different UUIDs. *)
Lemma b64_char_ok : forall n, base64_char (b64_char n).
Proof.
  intros n. unfold base64_char, b64_char. destruct (N.ltb_spec n 26); [right; left; lia|]. destruct (N.ltb_spec n 52); [left; lia|]. destruct (N.ltb_spec n 62); [right; right; left; lia|].
  destruct (N.eqb n 62); auto.
Qed.
Lemma trimmed_ok : forall l, Forall base64_char (trimmed l) /\ List.length (trimmed l) = ((4 * List.length l + 2) / 3)%nat.
Proof.
  induction l as [|a|a b|a b c l [IH1 IH2]] using three_ind; cbn [trimmed app].
  - split; [constructor|reflexivity].
  - split; [repeat (constructor; [apply b64_char_ok|]); constructor|reflexivity].
  - split; [repeat (constructor; [apply b64_char_ok|]); constructor|reflexivity].
  - split; [repeat (constructor; [apply b64_char_ok|]); exact IH1|]. cbn [List.length]. rewrite IH2.
    replace (4 * S (S (S (List.length l))) + 2)%nat with (4 * List.length l + 2 + 4 * 3)%nat by lia. rewrite Nat.div_add by discriminate. lia.
Qed.
Theorem C38_generated : forall u u', Forall byte u -> Forall byte u' -> List.length u = 16%nat -> List.length u' = 16%nat ->
  Forall base64_char (generate_rate_limit_id u) /\ List.length (generate_rate_limit_id u) = 22%nat /\
  (generate_rate_limit_id u = generate_rate_limit_id u' <-> u = u').
Proof.
  intros u u' B B' H H'. unfold generate_rate_limit_id. destruct (trimmed_ok u) as [T1 T2]. rewrite (proj1 (encode_trim u B)). split; [exact T1|]. split; [rewrite T2, H; reflexivity|].
  rewrite (proj1 (encode_trim u' B')). split; [apply trimmed_inj; assumption|congruence].
Qed.
Print Assumptions C38_generated.
Theorem C38_alphabet : forall r i, (forall a, known_by r a -> Forall byte a) -> get_rate_limit_identifier r = Some i -> Forall base64_char i.
Proof.
  intros r i B H. unfold get_rate_limit_identifier in H. destruct (internal_get_identifier r) as [a|] eqn:Q; [|discriminate]. injection H as <-.
  assert (K : known_by r a). { destruct r as [[ra|] [pa|] [[v [[|]|]]|]]; cbn in Q; try discriminate; injection Q as <-; constructor; discriminate. }
  rewrite (proj1 (encode_trim a (B a K))). apply trimmed_ok.
Qed.
Print Assumptions C38_alphabet.
Example C38_case : get_rate_limit_identifier (Sender (Some (lit "127.0.0.1")) None None) = Some (lit "MTI3LjAuMC4x") /\
  get_rate_limit_identifier (Sender (Some (lit "::1")) (Some (lit "x")) None) = Some (lit "Ojox") /\
  get_rate_limit_identifier (Sender None (Some (lit "10.0.0.10")) None) = Some (lit "MTAuMC4wLjEw") /\
  get_rate_limit_identifier (Sender None None (Some (lit "ab", None))) = Some (lit "YWI") /\
  get_rate_limit_identifier (Sender None None (Some (lit "abcd", Some true))) = Some (lit "YWJjZA") /\
  get_rate_limit_identifier (Sender None None (Some (lit "ab", Some false))) = None /\ Forall byte (lit "127.0.0.1").
Proof. repeat split; try (vm_compute; reflexivity). repeat constructor. Qed.

(** ** C60: listing *)

(** For every type but float, what is listed is exactly what the evaluation of that type knows. *)
Theorem C60_lists_exactly : forall D W (sv : service D W) E dbg t V (k : kind V W), t <> NFloat -> serves sv E dbg t V k ->
  exists names, listed sv E dbg (Some t) = Ok names /\ forall cf d, k_context k cf = Ok d -> lists_exactly E names (to_ctx E d).
Proof.
  intros D W sv E dbg t V k Ht S.
  assert (G : forall cf0, listed sv E dbg (Some t) = names_of (k_context k cf0) -> exists names, listed sv E dbg (Some t) = Ok names /\ forall cf d, k_context k cf = Ok d -> lists_exactly E names (to_ctx E d)).
  { intros cf0 H. destruct (contexts_made sv E dbg t V k S cf0) as (d0 & Hd0). rewrite Hd0 in H. rewrite H. eexists. split; [reflexivity|]. intros cf d Hd.
    destruct (same_tables sv E dbg t V k S cf cf0 d Hd) as (d1 & H1 & H2). rewrite Hd0 in H1. injection H1 as <-. destruct H2 as (_ & A & B & C & F).
    eapply lists; [exact B|exact F|exact C|exact A|reflexivity]. }
  destruct S; [apply (G config_new)|congruence|apply (G config_new)|apply (G (config_with_complex_number config_new true))|apply (G config_new)]; reflexivity.
Qed.
Print Assumptions C60_lists_exactly.
Theorem C60_default : forall D W (sv : service D W) E dbg, listed sv E dbg None = listed sv E dbg (Some NDecimal).
Proof. reflexivity. Qed.
Print Assumptions C60_default.

(** For floats it is not: [cbrt] is listed but unknown, [abs] is known but not listed. *)
Definition apart (q k : str) : bool := forallb is_ascii k && negb (str_eqb (map to_ascii_lowercase q) (map to_ascii_lowercase k)).
Lemma all_ascii : forall q, forallb is_ascii q = true -> ascii_string q.
Proof. intros q H. rewrite forallb_forall in H. apply Forall_forall. intros c Hc. specialize (H c Hc). unfold is_ascii in H. lia. Qed.
Lemma apart_ic : forall E q k, forallb is_ascii q = true -> apart q k = true -> eq_ignore_case E q k = false.
Proof.
  intros E q k Hq H. unfold apart in H. apply andb_prop in H. destruct H as [H1 H2]. destruct (eq_ignore_case E q k) eqn:Q; [|reflexivity].
  apply ascii_eq_ic in Q; [|apply all_ascii; assumption..]. apply fold_alike in Q. rewrite Q, str_eqb_refl in H2. discriminate.
Qed.
Lemma absent : forall E A (m : list (str * A)) q, forallb is_ascii q = true -> forallb (apart q) (map fst m) = true -> mget (key_match E) m q = None.
Proof.
  intros E A m q Hq. induction m as [|[k a] m IH]; intros H; [reflexivity|]. cbn [map fst forallb] in H. apply andb_prop in H. destruct H as [H1 H2]. rewrite mget_cons, (IH H2).
  destruct (key_match E q k) eqn:Q; [|reflexivity]. apply key_match_eq in Q. rewrite (apart_ic E q k Hq H1) in Q. discriminate.
Qed.
Theorem C60_float_refuted : forall D W (sv : service D W) E dbg, exists fs ops ks, listed sv E dbg (Some NFloat) = Ok (fs, ops, ks) /\
  forall cf d, checked_floats sv E dbg cf = Ok d ->
  (In (lit "cbrt") fs /\ get_function (to_ctx E d) (lit "cbrt") = None) /\
  (get_function (to_ctx E d) (lit "abs") <> None /\ forall k, In k fs -> eq_ignore_case E (lit "abs") k = false).
Proof.
  intros D W sv E dbg. unfold listed, decimals. rewrite decimal_is. eexists _, _, _. split; [reflexivity|].
  intros cf d Hd. unfold checked_floats in Hd. apply checked_inv in Hd. destruct Hd as (p & e & _ & _ & ->). split.
  - split; [do 5 right; left; reflexivity|]. unfold to_ctx, ctx_of. cbn [get_function d_funs]. apply absent; [reflexivity|]. destruct (s_docs sv); vm_compute; reflexivity.
  - split.
    + unfold to_ctx, ctx_of. cbn [get_function d_funs]. apply (listed_names E). rewrite map_map. cbn [fst]. do 5 right; left; reflexivity.
    + intros k Hk. assert (A : forallb (apart (lit "abs")) (map fst (d_funs (the_ctx (s_dlib sv) (s_fuel sv) (s_random sv) config_new))) = true) by (vm_compute; reflexivity).
      rewrite forallb_forall in A. apply apart_ic; [reflexivity|]. apply A, Hk.
Qed.
Print Assumptions C60_float_refuted.
Example C60_case : exists fs ops ks, listed example_service std_env true (Some NBinary) = Ok (fs, ops, ks) /\ fs = [] /\ ks = [] /\ In (lit "xor") ops /\ In (lit "<<") ops /\ In (lit "~") ops.
Proof. eexists _, _, _. split; [vm_compute; reflexivity|]. split; [reflexivity|]. split; [reflexivity|]. cbn. tauto. Qed.

(** ** C61: the command line *)
Theorem C61_types : forall s t, eval_type_from_str s = Some t <-> s = lit (type_name t).
Proof.
  intros s t. unfold eval_type_from_str. split.
  - repeat match goal with |- (if str_eqb s ?x then _ else _) = _ -> _ => destruct (str_eqb s x) eqn:?Q; [intros H; injection H as <-; apply str_eqb_eq; assumption|] end. discriminate.
  - intros ->. destruct t; reflexivity.
Qed.
Print Assumptions C61_types.

(** The expression is evaluated in the context of the type, and what is listed for a type is exactly what its evaluation knows. *)
Theorem C61_contexts : forall D W (sv : service D W) E dbg t V (k : kind V W), runs sv E dbg t V k ->
  exists d, k_context k (command_line_settings t) = Ok d /\ (forall x, get_variable (to_ctx E d) x = None) /\
  (forall s w, cli_eval sv E dbg t s w = printed (k_show k) (eval (to_ctx E d) (k_parse k) (split_into_tokens (k_rules k)) dbg s w)) /\
  exists names, cli_listed sv E dbg t = Ok names /\ lists_exactly E names (to_ctx E d).
Proof.
  intros D W sv E dbg t V k R. destruct R as [|t V k Ht S].
  - assert (H : forall cf, unchecked_floats sv E dbg cf = Ok (ctx_of f_PI f_E (unchecked_bins (f64_num (s_float_fuel sv)) (s_libm sv)) (unchecked_uns (f64_num (s_float_fuel sv)) (s_libm sv)) (unchecked_funs (f64_num (s_float_fuel sv)) (s_libm sv) (s_random sv)) cf)).
    { intros cf. apply unchecked_is; reflexivity. }
    eexists. split; [apply H|]. split; [reflexivity|]. split.
    + intros s w. unfold cli_eval, cli_typed. rewrite H. cbn [k_parse k_show k_rules unchecked_float_kind]. change cli_config with (command_line_settings NFloat). destruct (eval _ _ _ _ _ _) as [[v|kk|] w']; reflexivity.
    + unfold cli_listed. rewrite H. eexists. split; [reflexivity|]. eapply lists; reflexivity.
  - destruct (contexts_made sv E dbg t V k S (command_line_settings t)) as (d & Hd). exists d. split; [exact Hd|]. split.
    { intros x. unfold to_ctx. cbn [get_variable]. rewrite (no_variables sv E dbg t V k S _ d Hd). reflexivity. }
    split.
    + intros s w. assert (X : cli_eval sv E dbg t s w = cli_typed E dbg (k_parse k) (k_show k) (k_context k (command_line_settings t)) (k_rules k) s w) by (destruct S; [reflexivity|congruence|reflexivity..]).
      rewrite X, Hd. unfold cli_typed. destruct (eval _ _ _ _ _ _) as [[v|kk|] w']; reflexivity.
    + destruct (C60_lists_exactly D W sv E dbg t V k Ht S) as (names & H1 & H2). exists names. split; [|exact (H2 _ _ Hd)]. rewrite <- H1. destruct S; [reflexivity|congruence|reflexivity..].
Qed.
Print Assumptions C61_contexts.
