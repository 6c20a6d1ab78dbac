(** * Proofs about the server *)
From Coq Require Import List NArith ZArith Bool Arith Lia String Permutation.
From Verif Require Import ModelBase ModelContext ModelEvaluator ModelText ModelSplit ModelTokenizer ModelDefault ModelServer ModelFloat ModelNum ModelOps ModelComplex ModelBinary
  SpecTokens SpecText SpecLex SpecTokenizer SpecRepl ProofText ProofDefault ProofTokens ProofTokens2 ProofLex ProofTok ProofTok2 ProofRepl ProofFrame2 PropLex PropOps PropFrame.
From Verif Require Import ModelServer SpecServer.
Import ListNotations.

(** ** Base64 without its padding is injective *)
Section Base64.
Local Open Scope N_scope.
Lemma b64_inj : forall a b, a < 64 -> b < 64 -> b64_char a = b64_char b -> a = b.
Proof.
  intros a b Ha Hb H. unfold b64_char in H.
  destruct (N.ltb_spec a 26), (N.ltb_spec b 26); try destruct (N.ltb_spec a 52); try destruct (N.ltb_spec b 52); try destruct (N.ltb_spec a 62); try destruct (N.ltb_spec b 62);
    try destruct (N.eqb_spec a 62); try destruct (N.eqb_spec b 62); lia.
Qed.
Lemma b64_not_pad : forall a, a < 64 -> b64_char a <> 61.
Proof.
  intros a Ha H. unfold b64_char in H. destruct (N.ltb_spec a 26); try destruct (N.ltb_spec a 52); try destruct (N.ltb_spec a 62); try destruct (N.eqb_spec a 62); lia.
Qed.

(** What is left after trimming: the characters without the padding. *)
Fixpoint trimmed (bytes : list N) : str :=
  match bytes with
  | [] => []
  | [a] => [b64_char (a / 4); b64_char ((a mod 4) * 16)]
  | [a; b] => [b64_char (a / 4); b64_char ((a mod 4) * 16 + b / 16); b64_char ((b mod 16) * 4)]
  | a :: b :: c :: rest =>
      [b64_char (a / 4); b64_char ((a mod 4) * 16 + b / 16); b64_char ((b mod 16) * 4 + c / 64); b64_char (c mod 64)] ++ trimmed rest
  end.

Lemma quarter : forall a, byte a -> a / 4 < 64. Proof. intros. apply N.div_lt_upper_bound; unfold byte in *; lia. Qed.
Lemma q1 : forall a b, byte b -> (a mod 4) * 16 + b / 16 < 64.
Proof. intros a b Hb. assert (a mod 4 < 4) by (apply N.mod_lt; lia). assert (b / 16 < 16) by (apply N.div_lt_upper_bound; unfold byte in *; lia). lia. Qed.
Lemma q1' : forall a, (a mod 4) * 16 < 64. Proof. intros a. assert (a mod 4 < 4) by (apply N.mod_lt; lia). lia. Qed.
Lemma q2 : forall a b, byte b -> (a mod 16) * 4 + b / 64 < 64.
Proof. intros a b Hb. assert (a mod 16 < 16) by (apply N.mod_lt; lia). assert (b / 64 < 4) by (apply N.div_lt_upper_bound; unfold byte in *; lia). lia. Qed.
Lemma q2' : forall a, (a mod 16) * 4 < 64. Proof. intros a. assert (a mod 16 < 16) by (apply N.mod_lt; lia). lia. Qed.
Lemma q3 : forall a, a mod 64 < 64. Proof. intros a. apply N.mod_lt. lia. Qed.

Lemma three_ind : forall (P : list N -> Prop), P [] -> (forall a, P [a]) -> (forall a b, P [a; b]) -> (forall a b c l, P l -> P (a :: b :: c :: l)) -> forall l, P l.
Proof.
  intros P H0 H1 H2 H3 l. assert (G : forall n l, (List.length l <= n)%nat -> P l); [|apply (G (List.length l)); lia]. clear l.
  induction n as [|n IH]; intros [|a [|b [|c l]]] Hl; auto; cbn in Hl; try lia. apply H3, IH. lia.
Qed.
Lemma div_mod_eq : forall k a b, k <> 0 -> a / k = b / k -> a mod k = b mod k -> a = b.
Proof. intros k a b Hk H1 H2. rewrite (N.div_mod a k Hk), (N.div_mod b k Hk), H1, H2. reflexivity. Qed.
Lemma mix : forall p q p' q' k m, q < k -> q' < k -> m = k -> p * m + q = p' * m + q' -> p = p' /\ q = q'.
Proof. intros p q p' q' k m H1 H2 -> H. assert (p = p') by nia. subst. lia. Qed.
Lemma d16 : forall b, byte b -> b / 16 < 16. Proof. intros. apply N.div_lt_upper_bound; unfold byte in *; lia. Qed.
Lemma d64 : forall b, byte b -> b / 64 < 4. Proof. intros. apply N.div_lt_upper_bound; unfold byte in *; lia. Qed.

Lemma trimmed_inj : forall x y, Forall byte x -> Forall byte y -> trimmed x = trimmed y -> x = y.
Proof.
  induction x as [|a|a b|a b c l IH] using three_ind; intros [|a' [|b' [|c' l']]] Hx Hy H; try reflexivity; try (cbn in H; discriminate);
    try (exfalso; apply (f_equal (@List.length N)) in H; cbn in H; discriminate);
    repeat match goal with h : Forall byte (_ :: _) |- _ => inversion h; subst; clear h end.
  - injection H as E1 E2. apply b64_inj in E1; [|apply quarter; assumption..]. apply b64_inj in E2; [|apply q1'..].
    f_equal. apply (div_mod_eq 4); [discriminate|exact E1|lia].
  - injection H as E1 E2 E3. apply b64_inj in E1; [|apply quarter; assumption..]. apply b64_inj in E2; [|apply q1; assumption..]. apply b64_inj in E3; [|apply q2'..].
    apply (mix _ _ _ _ 16) in E2; [|apply d16; assumption..|reflexivity]. destruct E2 as [E2 E2'].
    f_equal; [apply (div_mod_eq 4); auto; discriminate|]. f_equal. apply (div_mod_eq 16); [discriminate|exact E2'|lia].
  - cbn [trimmed app] in H. injection H as E1 E2 E3 E4 E5. apply b64_inj in E1; [|apply quarter; assumption..]. apply b64_inj in E2; [|apply q1; assumption..]. apply b64_inj in E3; [|apply q2; assumption..].
    apply b64_inj in E4; [|apply q3..].
    apply (mix _ _ _ _ 16) in E2; [|apply d16; assumption..|reflexivity]. destruct E2 as [E2 E2'].
    apply (mix _ _ _ _ 4) in E3; [|apply d64; assumption..|reflexivity]. destruct E3 as [E3 E3'].
    f_equal; [apply (div_mod_eq 4); auto; discriminate|]. f_equal; [apply (div_mod_eq 16); auto; discriminate|]. f_equal; [apply (div_mod_eq 64); auto; discriminate|].
    apply IH; assumption.
Qed.

(** Trimming removes the padding and nothing else. *)
Fixpoint drop_pads (l : str) : str := match l with 61 :: l' => drop_pads l' | _ => l end.
Lemma drop_keep : forall l x, x <> 61 -> drop_pads (rev (l ++ [x])) = rev (l ++ [x]).
Proof. intros l x H. rewrite rev_app_distr. cbn. destruct x as [|p]; [reflexivity|]. repeat (destruct p; try reflexivity; try congruence). Qed.
Lemma trim_spec : forall l x n, x <> 61 -> trim_end_equals (l ++ [x] ++ repeat 61 n) = l ++ [x].
Proof.
  intros l x n H. change (trim_end_equals (l ++ [x] ++ repeat 61 n)) with (rev (drop_pads (rev (l ++ [x] ++ repeat 61 n)))).
  rewrite app_assoc, rev_app_distr. assert (R : forall k m, drop_pads (rev (repeat 61 k) ++ m) = drop_pads m).
  { intros k m. assert (S : rev (repeat 61 k) = repeat 61 k). { induction k as [|k IH]; [reflexivity|]. cbn [repeat rev]. rewrite IH. clear. induction k as [|k IH]; [reflexivity|]. cbn. rewrite IH. reflexivity. }
    rewrite S. clear S. induction k as [|k IH]; [reflexivity|]. cbn. exact IH. }
  rewrite R, drop_keep by exact H. apply rev_involutive.
Qed.
Lemma encode_trim : forall x, Forall byte x -> trim_end_equals (b64_encode x) = trimmed x /\ exists n, b64_encode x = trimmed x ++ repeat 61 n.
Proof.
  intros x Hx. assert (A : x = [] \/ exists l e n, trimmed x = l ++ [e] /\ e <> 61 /\ b64_encode x = l ++ [e] ++ repeat 61 n).
  { revert Hx. induction x as [|a|a b|a b c l IH] using three_ind; intros Hx; [auto|right..];
      repeat match goal with h : Forall byte (_ :: _) |- _ => inversion h; subst; clear h end.
    - exists [b64_char (a / 4)], (b64_char ((a mod 4) * 16)), 2%nat. split; [reflexivity|]. split; [apply b64_not_pad, q1'|reflexivity].
    - exists [b64_char (a / 4); b64_char ((a mod 4) * 16 + b / 16)], (b64_char ((b mod 16) * 4)), 1%nat. split; [reflexivity|]. split; [apply b64_not_pad, q2'|reflexivity].
    - destruct IH as [->|(l0 & e & n & IH1 & IH2 & IH3)]; [assumption| |].
      + exists [b64_char (a / 4); b64_char ((a mod 4) * 16 + b / 16); b64_char ((b mod 16) * 4 + c / 64)], (b64_char (c mod 64)), 0%nat. split; [reflexivity|]. split; [apply b64_not_pad, q3|reflexivity].
      + exists ([b64_char (a / 4); b64_char ((a mod 4) * 16 + b / 16); b64_char ((b mod 16) * 4 + c / 64); b64_char (c mod 64)] ++ l0), e, n.
        cbn [trimmed b64_encode]. rewrite IH1, IH3, <- !app_assoc. auto. }
  destruct A as [->|(l & e & n & H1 & H2 & H3)]; [split; [reflexivity|exists 0%nat; reflexivity]|]. rewrite H3, H1. split; [apply trim_spec, H2|].
  exists n. rewrite <- app_assoc. reflexivity.
Qed.
Lemma identifier_inj : forall x y, Forall byte x -> Forall byte y -> trim_end_equals (b64_encode x) = trim_end_equals (b64_encode y) -> x = y.
Proof. intros x y Hx Hy. rewrite (proj1 (encode_trim x Hx)), (proj1 (encode_trim y Hy)). apply trimmed_inj; assumption. Qed.
End Base64.

(** ** Setting the variables of a request *)
Section Variables.
Context {D V W : Type}.
Variable sv : service D W.
Variable E : env.
Variable dbg : bool.
Variable read : str -> option V.
Notation text := (value_text sv).
Notation set_all := (set_variables (W := W) E dbg read (s_show_f64 sv)).
Notation acceptable := (accepted sv E dbg read).
Lemma text_is : forall t, variable_text (s_show_f64 sv) t = text t. Proof. destruct t; reflexivity. Qed.

Lemma acceptable_dec : forall d p, acceptable d p \/ ~ acceptable d p.
Proof.
  intros d [n t]. unfold accepted. cbn [fst snd]. destruct (assignable_dec E dbg d n) as [A|A]; [|right; tauto]. destruct (read (text t)) as [v|]; [left; split; [exact A|discriminate]|right].
  intros [_ Hv]. congruence.
Qed.
Lemma same_acceptable : forall d d' p, same_but_variables d d' -> (acceptable d p <-> acceptable d' p).
Proof.
  intros d d' p S. unfold accepted, assignable. destruct S as (-> & _). reflexivity.
Qed.

Lemma set_all_ok : forall vars d, Forall (acceptable d) vars -> exists d', set_all vars d = Ok (inl d') /\ same_but_variables d d' /\
  (forall x, ~ In x (map fst vars) -> get_variable (to_ctx E d') x = get_variable (to_ctx E d) x) /\
  (NoDup (map fst vars) -> forall x t, In (x, t) vars -> get_variable (to_ctx E d') x = read (text t)).
Proof.
  induction vars as [|[n t] vars IH]; intros d F; cbn [set_variables].
  - exists d. split; [reflexivity|]. split; [apply same_refl|]. split; [reflexivity|]. intros _ x t [].
  - rewrite text_is. inversion F as [|? ? [A Hv] F']; subst. cbn [fst snd] in A, Hv. destruct (read (text t)) as [v|] eqn:Hr; [|congruence]. destruct (set_ok E dbg n v d A) as (d1 & S & Sm & G). rewrite S.
    assert (F1 : Forall (acceptable d1) vars) by (eapply Forall_impl; [|exact F']; intros p Hp; apply (same_acceptable d d1 p Sm), Hp).
    destruct (IH d1 F1) as (d' & R & Sm' & K1 & K2). exists d'. split; [exact R|]. split; [eapply same_trans; eassumption|]. split.
    + intros x Hx. cbn [map fst In] in Hx. rewrite K1, G by tauto. destruct (str_eqb n x) eqn:Q; [|reflexivity]. apply str_eqb_eq in Q. tauto.
    + intros Nd x t' [X|X]; cbn [map fst] in Nd; inversion Nd as [|? ? N1 N2]; subst.
      * injection X as <- <-. rewrite K1, G by exact N1. rewrite str_eqb_refl, Hr. reflexivity.
      * apply K2; assumption.
Qed.
Lemma set_all_not_ok : forall vars d, ~ Forall (acceptable d) vars -> exists m, set_all vars d = Ok (inr m).
Proof.
  induction vars as [|[n t] vars IH]; intros d F; cbn [set_variables]; [exfalso; apply F; constructor|].
  rewrite text_is. destruct (read (text t)) as [v|] eqn:R; [|eauto]. destruct (assignable_dec E dbg d n) as [A|A].
  - destruct (set_ok E dbg n v d A) as (d1 & S & Sm & _). rewrite S. apply IH. intros F1. apply F. constructor; [split; [exact A|cbn [snd]; congruence]|].
    eapply Forall_impl; [|exact F1]. intros p Hp. apply (same_acceptable d d1 p Sm), Hp.
  - destruct (set_not_ok E dbg n v d A) as (k & S). rewrite S. eauto.
Qed.
Lemma acceptables_dec : forall d vars, Forall (acceptable d) vars \/ ~ Forall (acceptable d) vars.
Proof.
  intros d. induction vars as [|p vars [IH|IH]]; [left; constructor| |].
  - destruct (acceptable_dec d p) as [A|A]; [left; constructor; assumption|right; intros F; inversion F; contradiction].
  - right. intros F. inversion F; contradiction.
Qed.

Lemma with_variables_perm : forall d vars vars' d1 d2, Permutation vars vars' -> with_variables sv E read d vars d1 -> with_variables sv E read d vars' d2 ->
  forall parse splitter s w, eval (to_ctx E d1) parse splitter dbg s w = eval (to_ctx E d2) parse splitter dbg s w.
Proof.
  intros d vars vars' d1 d2 P ((A1 & A2 & A3 & A4 & A5) & A6 & A7) ((B1 & B2 & B3 & B4 & B5) & B6 & B7) parse splitter s w.
  apply C59_frame; unfold to_ctx; cbn [cfg get_unary get_binary get_constant get_function]; rewrite ?A1, ?A2, ?A3, ?A4, ?A5, ?B1, ?B2, ?B3, ?B4, ?B5; try reflexivity.
  intros x Hx. split; [|split; reflexivity]. change (get_variable (to_ctx E d1) x = get_variable (to_ctx E d2) x).
  destruct (in_dec (list_eq_dec N.eq_dec) x (map fst vars)) as [I|I].
  - apply in_map_iff in I. destruct I as ([y t] & <- & I). cbn [fst]. rewrite (A7 y t I), (B7 y t); [reflexivity|]. eapply Permutation_in; eassumption.
  - rewrite A6 by exact I. rewrite B6; [reflexivity|]. intros J. apply I. eapply Permutation_in; [apply Permutation_sym, Permutation_map, P|exact J].
Qed.

Variable parse : str -> option V.
Variable show : V -> str.
Notation typed := (eval_typed (W := W) E dbg read parse show (s_show_f64 sv)).
Notation vars_of v := (match v with Some l => l | None => [] end).
Lemma typed_ok : forall d rules vars e w, Forall (acceptable d) (vars_of vars) -> NoDup (map fst (vars_of vars)) ->
  exists d', with_variables sv E read d (vars_of vars) d' /\ typed (Ok d) rules vars e w = answer_to show (eval (to_ctx E d') parse (split_into_tokens rules) dbg e w).
Proof.
  intros d rules vars e w F N. unfold eval_typed. destruct (set_all_ok _ d F) as (d' & -> & S & K1 & K2). exists d'. split; [split; [exact S|]; split; [exact K1|apply K2, N]|].
  destruct (eval _ _ _ _ _ _) as [[v|k|] w']; reflexivity.
Qed.
Lemma typed_not_ok : forall d rules vars e w, ~ Forall (acceptable d) (vars_of vars) -> exists m, typed (Ok d) rules vars e w = (Ok (inr m), w).
Proof. intros d rules vars e w F. unfold eval_typed. destruct (set_all_not_ok _ d F) as (m & ->). eauto. Qed.
Lemma typed_panic : forall r rules vars e w, (forall d, r <> Ok d) -> typed r rules vars e w = (Panic, w).
Proof. intros [d|k|] rules vars e w H; [exfalso; eapply H; reflexivity| |]; reflexivity. Qed.
End Variables.

(** ** A text never panics if no operation it names does *)
Lemma text_no_panic : forall V W (c : ctx V W) parse rules dbg s w, Forall shipped rules -> ascii s ->
  (forall x, In x (split_into_tokens rules s) -> calls_safely c (TFunction x) /\ calls_safely c (TUnary x) /\ calls_safely c (TBinary x)) ->
  (implicit_mul (cfg c) = true -> calls_safely c (TBinary star)) ->
  fst (eval c parse (split_into_tokens rules) dbg s w) <> Panic.
Proof.
  intros V W c parse rules dbg s w Hr Ha Hx Hi. unfold eval, bind, lift. pose proof (C12_ascii_no_panic V W c parse rules Hr s Ha) as NP.
  destruct (tokenize c parse (split_into_tokens rules) s) as [ts|k|] eqn:Et; [|discriminate|congruence]. apply C13_words_to_tokens in Et. destruct Et as [_ Et].
  assert (G : forall prev l ts, stand_for c parse prev l ts -> forall x, In (TUnary x) ts \/ In (TFunction x) ts \/ In (TBinary x) ts -> In x l).
  { clear. intros prev l ts S. induction S as [prev|prev ws ts Hn _ IH|prev s ws t ts Ht Hk Hi _ IH|prev s ws v ts Hx _ _ _ IH]; intros x Hx'.
    - destruct Hx' as [[]|[[]|[]]].
    - right. apply IH. exact Hx'.
    - destruct Hx' as [[X|X]|[[X|X]|[X|X]]]; try (right; apply IH; auto; fail); subst t; inversion Ht; subst; left; reflexivity.
    - right. right. apply IH. destruct Hx' as [[X|X]|[[X|X]|[X|X]]]; try discriminate; auto. }
  apply eval_no_panic; [|exact Hi]. apply Forall_forall. intros t Ht. destruct t; try exact I; apply Hx, (G None _ ts Et); auto.
Qed.

(** ** Listing *)
Section Listing.
Context {V W : Type}.
Variable E : env.
Lemma listed_names : forall A (m : list (str * A)), exactly_these E (map fst m) (mget (key_match E) m).
Proof.
  intros A m. split.
  - intros n Hn. apply in_map_iff in Hn. destruct Hn as ([k a] & <- & Hin). cbn [fst]. induction m as [|[k' a'] m IH]; [destruct Hin|]. rewrite mget_cons.
    destruct (key_match E k k') eqn:Q; [discriminate|]. apply IH. destruct Hin as [X|X]; [|exact X]. injection X as -> ->. rewrite key_match_self in Q by apply alike_refl. discriminate.
  - intros n Hn. destruct (mget (key_match E) m n) as [a|] eqn:G; [|congruence]. apply mget_some in G. destruct G as (k & Hin & Hk). exists k. split; [|apply key_match_eq, Hk].
    apply in_map_iff. exists (k, a). auto.
Qed.
Lemma lists : forall (d0 d : dctx V W), d_funs d0 = d_funs d -> d_binary d0 = d_binary d -> d_unary d0 = d_unary d -> d_consts d0 = d_consts d ->
  forall l, names_of (Ok d0) = Ok l -> lists_exactly E l (to_ctx E d).
Proof.
  intros d0 d H1 H2 H3 H4 l H. cbn [names_of] in H. injection H as <-. rewrite H1, H2, H3, H4. unfold lists_exactly, to_ctx. cbn [get_function get_constant get_binary get_unary].
  split; [apply listed_names|]. split; [apply listed_names|]. destruct (listed_names _ (d_binary d)) as [B1 B2]. destruct (listed_names _ (d_unary d)) as [U1 U2]. split.
  - intros n Hn. apply in_app_or in Hn. destruct Hn as [Hn|Hn]; [left; apply B1, Hn|right; apply U1, Hn].
  - intros n [Hn|Hn]; [destruct (B2 n Hn) as (k & K1 & K2)|destruct (U2 n Hn) as (k & K1 & K2)]; exists k; split; auto; apply in_or_app; auto.
Qed.
End Listing.

(** ** The contexts of the number types *)
From Verif Require Import ModelDecimal ProofBuild ProofCtx ProofDecimal ProofBinary ProofComplex ProofOps3.
From Verif Require Import ModelServer SpecServer.
Section Contexts.
Context {D W : Type}.
Variable sv : service D W.
Variable E : env.
Variable dbg : bool.

(** Whether a context can be made, and its entries, do not depend on the configuration. *)
Definition same_entries {V} (d d' : dctx V W) : Prop :=
  d_vars d = d_vars d' /\ d_consts d = d_consts d' /\ d_funs d = d_funs d' /\ d_unary d = d_unary d' /\ d_binary d = d_binary d'.
Lemma same_tables : forall t V (k : kind V W), serves sv E dbg t V k -> forall cf cf' d, k_context k cf = Ok d ->
  exists d', k_context k cf' = Ok d' /\ same_entries d' d.
Proof.
  intros t V k S cf cf' d H. destruct S; cbn [k_context decimal_kind float_kind integer_kind complex_kind binary_kind] in *.
  - unfold decimals in *. rewrite decimal_is in *. injection H as <-. eexists. split; [reflexivity|]. repeat split.
  - unfold checked_floats in *. apply checked_inv in H. destruct H as (p & e & Hp & He & ->). eexists. split; [apply checked_is; eassumption|]. repeat split.
  - unfold integers in *. apply checked_inv in H. destruct H as (p & e & Hp & He & ->). eexists. split; [apply checked_is; eassumption|]. repeat split.
  - unfold complexes in *. rewrite complex_is in *. injection H as <-. eexists. split; [reflexivity|]. repeat split.
  - unfold binaries in *. rewrite binary_is in *. injection H as <-. eexists. split; [reflexivity|]. repeat split.
Qed.
Lemma no_variables : forall t V (k : kind V W), serves sv E dbg t V k -> forall cf d, k_context k cf = Ok d -> d_vars d = [].
Proof.
  intros t V k S cf d H. destruct S; cbn [k_context decimal_kind float_kind integer_kind complex_kind binary_kind] in *.
  - unfold decimals in *. rewrite decimal_is in *. injection H as <-. reflexivity.
  - unfold checked_floats in *. apply checked_inv in H. destruct H as (p & e & Hp & He & ->). reflexivity.
  - unfold integers in *. apply checked_inv in H. destruct H as (p & e & Hp & He & ->). reflexivity.
  - unfold complexes in *. rewrite complex_is in *. injection H as <-. reflexivity.
  - unfold binaries in *. rewrite binary_is in *. injection H as <-. reflexivity.
Qed.
(** All the contexts can be made. *)
Lemma contexts_made : forall t V (k : kind V W), serves sv E dbg t V k -> forall cf, exists d, k_context k cf = Ok d.
Proof.
  intros t V k S cf. destruct S; cbn [k_context decimal_kind float_kind integer_kind complex_kind binary_kind].
  - unfold decimals. rewrite decimal_is. eauto.
  - unfold checked_floats. eexists. apply checked_is; reflexivity.
  - unfold integers. eexists. apply checked_is; vm_compute; reflexivity.
  - unfold complexes. rewrite complex_is. eauto.
  - unfold binaries. rewrite binary_is. eauto.
Qed.
Lemma dispatch : forall t V (k : kind V W), serves sv E dbg t V k -> forall q w, asked q = t ->
  eval_expression sv E dbg q w = eval_typed E dbg (k_read k) (k_parse k) (k_show k) (s_show_f64 sv) (k_context k (server_settings t)) (k_rules k) (q_variables q) (q_expression q) w.
Proof. intros t V k S q w H. unfold eval_expression. unfold asked in H. rewrite H. destruct S; reflexivity. Qed.
Lemma served : forall t, exists V (k : kind V W), serves sv E dbg t V k.
Proof. intros []; eexists _, _; constructor. Qed.
End Contexts.
