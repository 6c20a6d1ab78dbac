(** * C110: the errors of prexel's own operators, as the user reads them

    Vocabulary: SpecMessage ([tell_function]: a call with what it says), SpecSpoken (the types with what they say), SpecServer (a request's variables),
    SpecJson (JSON texts and bytes), SpecCalculator, SpecDecCalc and SpecDoubleCalc (the calculators). *)
From Coq Require Import List NArith ZArith QArith Bool Arith Lia String.
From Verif Require Import ModelBase ModelContext ModelEvaluator ModelText ModelSplit ModelTokenizer ModelDefault ModelFloat ModelNum ModelOps ModelParse ModelComplex ModelMessage ModelVoice ModelSpoken ModelStd SpecText
  SpecExpr SpecOps SpecLex SpecTokenizer SpecRepl SpecCalculator SpecMessage ProofText ProofMessage.
From Verif Require Import ModelServer SpecServer SpecSpoken ModelJson SpecJson.
From Verif Require ModelDecimal ProofDecimal ProofParse ProofCalculator ProofDecRef SpecParse PropServer PropJson PropEndToEnd ProofSpoken PropMessage PropSpoken PropCalculator PropDecCalc PropDoubleCalc PropLex PropDouble PropRandom PropComplex ProofComplex SpecDecCalc SpecDoubleCalc SpecDecimal SpecDouble.
Import ListNotations.
Local Open Scope string_scope.
Local Open Scope list_scope.

(** ** The functions with texts of their own *)
Definition hears_ {A W} (r : told A * W) : res A * W := (heard (fst r), snd r).
Lemma said_heard : forall A (r : res A), heard (said_of r) = r. Proof. intros A []; reflexivity. Qed.
Lemma rand_same : forall V W (random : W -> f64 * W) show (n : num V) args w, hears_ (rand_m random show n args w) = fn_call (op_rand n random) args w.
Proof.
  intros V W random show n args w. unfold rand_m, op_rand. cbn [fn_call]. unfold hears_, tbind_w, bind, lift, fail. destruct args as [|x [|y [|]]]; try reflexivity.
  - destruct (random w). cbn [fst snd]. rewrite said_heard. reflexivity.
  - destruct (try_to_float n x); cbn [said_of fst snd]; try reflexivity. destruct (f_sign_negative _); [reflexivity|]. destruct (random w). cbn [fst snd]. rewrite said_heard. reflexivity.
  - destruct (try_to_float n x); cbn [said_of fst snd]; try reflexivity. destruct (try_to_float n y); cbn [said_of fst snd]; try reflexivity. destruct (f_lt _ _); [reflexivity|]. destruct (random w). cbn [fst snd]. rewrite said_heard. reflexivity.
Qed.
Lemma complex_rand_same : forall W (random : W -> f64 * W) show args w, hears_ (complex_rand_m random show args w) = fn_call (z_rand random) args w.
Proof.
  intros W random show args w. unfold complex_rand_m, z_rand. cbn [fn_call]. unfold hears_, tbind_w, bind, lift, fail, try_get_real_m, try_get_real. destruct args as [|x [|y [|]]]; try reflexivity.
  - destruct (random w) as [r w1]. destruct (random w1). reflexivity.
  - destruct (f_is_zero (im x)); cbn [negb fst snd heard]; try reflexivity. destruct (f_sign_negative _); [reflexivity|]. destruct (random w) as [r w1]. destruct (random w1). reflexivity.
  - destruct (f_is_zero (im x)); cbn [negb fst snd heard]; try reflexivity. destruct (f_is_zero (im y)); cbn [negb fst snd heard]; try reflexivity. destruct (_ || _)%bool; [reflexivity|]. destruct (random w) as [r w1]. destruct (random w1). reflexivity.
Qed.
Theorem C110_same : forall V W (random : W -> f64 * W) show (n : num V) L,
  (forall args w, hears_ (rand_m random show n args w) = fn_call (op_rand n random) args w) /\
  (forall args w, hears_ (complex_rand_m random show args w) = fn_call (z_rand random) args w) /\
  (forall args (w : W), (heard (complex_log_m L args), w) = fn_call (z_log L) args w).
Proof.
  intros V W random show n L. split; [intros; apply rand_same|]. split; [intros; apply complex_rand_same|]. intros [|x [|b [|]]] w; try reflexivity. unfold complex_log_m, z_log, fun_. cbn [fn_call]. destruct (f_is_zero (im b)); reflexivity.
Qed.
Print Assumptions C110_same.
(** They say of their errors only the kind, except of invalid inputs (the hypothesis of C108_kinds). *)
Theorem C110_plain : forall V W (random : W -> f64 * W) show E ty odd (n : num V) L dbgv dbgc,
  PropMessage.plain_voice (number_voice random show E ty odd n dbgv) /\ PropMessage.plain_voice (complex_voice random show E ty odd L dbgc).
Proof.
  intros V W random show E ty odd n L dbgv dbgc. assert (X : forall A (r : told A) k, k <> InvalidInput -> text_from r k = kind_text k) by (intros A r k N; unfold text_from; destruct r as [|kk m|]; try reflexivity; destruct kk; try reflexivity; destruct k; congruence).
  split; (split; [reflexivity|]); (split; [reflexivity|]); intros f xs w k N; cbn [v_function number_voice complex_voice]; repeat destruct (eq_ignore_case _ _ _); rewrite ?X by exact N; reflexivity.
Qed.
Print Assumptions C110_plain.
Lemma random_is : forall E f, ascii_alike f (lit "random") -> eq_ignore_case E f (lit "random") = true.
Proof. intros E f A. exact (key_match_eq E f (lit "random") (key_match_self E f (lit "random") A)). Qed.
Lemma log_is : forall E f, ascii_alike f (lit "log") -> eq_ignore_case E f (lit "log") = true.
Proof. intros E f A. exact (key_match_eq E f (lit "log") (key_match_self E f (lit "log") A)). Qed.
(** A call is told as the function itself says it. *)
Theorem C110_says : forall V W (rnd : W -> f64 * W) show E ty odd (n : num V) L dbgv dbgc (c : ctx V W) (z : ctx c64 W) f args zs w,
  (ascii_alike f (lit "random") -> get_function c f = Some (op_rand n rnd) -> tell_function c (number_voice rnd show E ty odd n dbgv) f args w = rand_m rnd show n args w) /\
  (ascii_alike f (lit "random") -> get_function z f = Some (z_rand rnd) -> tell_function z (complex_voice rnd show E ty odd L dbgc) f zs w = complex_rand_m rnd show zs w) /\
  (ascii_alike f (lit "log") -> get_function z f = Some (z_log L) -> tell_function z (complex_voice rnd show E ty odd L dbgc) f zs w = (complex_log_m L zs, w)).
Proof.
  intros V W rnd show E ty odd n L dbgv dbgc c z f args zs w.
  assert (K : forall A (r : told A), (forall k m, r = Errs k m -> k <> InvalidInput -> m = kind_text k) -> forall k m, r = Errs k m -> text_from r k = m).
  { intros A r H k m ->. destruct k; cbn [text_from]; try reflexivity; symmetry; apply (H _ m eq_refl); discriminate. }
  assert (SO : forall A (r : res A) k m, said_of r = Errs k m -> m = kind_text k) by (intros A r k m H; destruct r; try discriminate; injection H as <- <-; reflexivity).
  split; [|split]; intros A G; unfold tell_function; rewrite G; unfold outcome.
  - rewrite <- (rand_same V W rnd show n args w). cbn [v_function number_voice]. rewrite (random_is E f A). unfold hears_.
    assert (R : forall k m, fst (rand_m rnd show n args w) = Errs k m -> k <> InvalidInput -> m = kind_text k).
    { intros k m H N. unfold rand_m, tbind_w in H. destruct args as [|x [|y [|]]].
      - destruct (rnd w). exact (SO _ _ _ _ H).
      - destruct (try_to_float n x); cbn [said_of fst] in H; [|injection H as <- <-; reflexivity|discriminate]. destruct (f_sign_negative _); [injection H as <- <-; reflexivity|]. destruct (rnd w). exact (SO _ _ _ _ H).
      - destruct (try_to_float n x); cbn [said_of fst] in H; [|injection H as <- <-; reflexivity|discriminate]. destruct (try_to_float n y); cbn [said_of fst] in H; [|injection H as <- <-; reflexivity|discriminate].
        destruct (f_lt _ _); [cbn [fst] in H; injection H as <- <-; contradiction|]. destruct (rnd w). exact (SO _ _ _ _ H).
      - injection H as <- <-. reflexivity. }
    specialize (K _ _ R). destruct (rand_m rnd show n args w) as [[v|k m|] w1]; cbn [fst snd heard] in *; try reflexivity. rewrite (K k m eq_refl). reflexivity.
  - rewrite <- (complex_rand_same W rnd show zs w). cbn [v_function complex_voice]. rewrite (random_is E f A). unfold hears_.
    assert (R : forall k m, fst (complex_rand_m rnd show zs w) = Errs k m -> k <> InvalidInput -> m = kind_text k).
    { intros k m H N. unfold complex_rand_m, tbind_w, try_get_real_m in H. destruct zs as [|x [|y [|]]].
      - destruct (rnd w) as [r w1]. destruct (rnd w1). discriminate.
      - destruct (f_is_zero (im x)); cbn [negb fst] in H; [|injection H as <- <-; contradiction]. destruct (f_sign_negative _); [injection H as <- <-; reflexivity|]. destruct (rnd w) as [r w1]. destruct (rnd w1). discriminate.
      - destruct (f_is_zero (im x)); cbn [negb fst] in H; [|injection H as <- <-; contradiction]. destruct (f_is_zero (im y)); cbn [negb fst] in H; [|injection H as <- <-; contradiction].
        destruct (_ || _)%bool; [cbn [fst] in H; injection H as <- <-; contradiction|]. destruct (rnd w) as [r w1]. destruct (rnd w1). discriminate.
      - injection H as <- <-. reflexivity. }
    specialize (K _ _ R). destruct (complex_rand_m rnd show zs w) as [[v|k m|] w1]; cbn [fst snd heard] in *; try reflexivity. rewrite (K k m eq_refl). reflexivity.
  - assert (N : eq_ignore_case E f (lit "random") = false) by (rewrite (eq_ic_lower E f (lit "log") (lit "random") (lit "random") (alike_lower E _ _ A) eq_refl); reflexivity).
    cbn [v_function complex_voice]. rewrite N, (log_is E f A). unfold z_log, fun_, complex_log_m. cbn [fn_call]. destruct zs as [|x [|b [|]]]; try reflexivity. destruct (f_is_zero (im b)); reflexivity.
Qed.
Print Assumptions C110_says.
(** Of numbers, [random(x, y)] is refused as invalid input exactly if y is below x, with both as doubles in the message. *)
Theorem C110_random : forall V W (c : ctx V W) (n : num V) (rnd : W -> f64 * W) show E ty odd debug f args w m w', ascii_alike f (lit "random") -> get_function c f = Some (op_rand n rnd) ->
  tell_function c (number_voice rnd show E ty odd n debug) f args w = (Errs InvalidInput m, w') <->
  w' = w /\ exists x y min max, args = [x; y] /\ try_to_float n x = Ok min /\ try_to_float n y = Ok max /\ f_lt max min = true /\
    m = lit "Invalid range for `Random`: min > max, " ++ show min ++ lit " > " ++ show max.
Proof.
  intros V W c n rnd show E ty odd debug f args w m w' A G. unfold tell_function. rewrite G. unfold outcome. rewrite <- (rand_same V W rnd show n args w). cbn [v_function number_voice]. rewrite (random_is E f A). unfold hears_.
  assert (TF : forall z, try_to_float n z <> Err InvalidInput) by (intros z; unfold try_to_float; repeat match goal with |- context [match ?q with _ => _ end] => destruct q end; discriminate).
  assert (OV : forall (o : option V), said_of (or_overflow o) <> Errs InvalidInput (kind_text InvalidInput)) by (intros []; discriminate).
  unfold rand_m, tbind_w. split.
  - destruct args as [|x [|y [|]]].
    + destruct (rnd w) as [r w1]. cbn [fst snd]. destruct (n_from_f64 n r); discriminate.
    + specialize (TF x). destruct (try_to_float n x) as [a|k|]; cbn [said_of fst snd heard]; [|intros H; injection H as -> _ _; congruence|discriminate]. destruct (f_sign_negative a); [discriminate|]. destruct (rnd w) as [r w1]. cbn [fst snd]. destruct (n_from_f64 n _); discriminate.
    + pose proof (TF x) as T1. pose proof (TF y) as T2. destruct (try_to_float n x) as [a|k|] eqn:Ex; cbn [said_of fst snd heard]; [|intros H; injection H as -> _ _; congruence|discriminate].
      destruct (try_to_float n y) as [b|k|] eqn:Ey; cbn [said_of fst snd heard]; [|intros H; injection H as -> _ _; congruence|discriminate].
      destruct (f_lt b a) eqn:Lt; [|destruct (rnd w) as [r w1]; cbn [fst snd]; destruct (n_from_f64 n _); discriminate].
      cbn [fst snd heard text_from]. intros H. injection H as <- <-. split; [reflexivity|]. exists x, y, a, b. repeat split; assumption.
    + discriminate.
  - intros (-> & x & y & a & b & -> & -> & -> & Lt & ->). cbn [said_of]. rewrite Lt. reflexivity.
Qed.
Print Assumptions C110_random.
(** It is this function in the contexts of doubles, of integers and of decimals; complex ones have their own. *)
Theorem C110_random_known : forall W (rnd : W -> f64 * W) L docs E dbg cf f, ascii_alike f (lit "random") ->
  (forall fuel d, PropDouble.f64_context fuel L rnd docs E dbg cf d -> get_function (to_ctx E d) f = Some (op_rand (f64_num fuel) rnd)) /\
  (forall t d, checked_context (int_num t dbg) L rnd docs E dbg cf = Ok d \/ unchecked_context (int_num t dbg) L rnd E dbg cf = Ok d -> get_function (to_ctx E d) f = Some (op_rand (int_num t dbg) rnd)) /\
  (forall D (DL : ModelDecimal.dlib D) fuel d, ModelDecimal.decimal_context DL fuel rnd E dbg cf = Ok d -> get_function (to_ctx E d) f = Some (op_rand (ModelDecimal.dec_num DL fuel) rnd)) /\
  (forall CL d, complex_context CL rnd E dbg cf = Ok d -> get_function (to_ctx E d) f = Some (z_rand rnd)).
Proof.
  intros W rnd L docs E dbg cf f A. split; [|split; [|split; [intros D DL fuel d H; exact (ProofDecimal.dec_fun DL fuel rnd E dbg cf d H 9 _ f eq_refl A)|intros CL d H; exact (ProofComplex.cx_fun CL rnd E dbg cf d H 6 _ f eq_refl A)]]].
  - intros fuel d H. exact (PropDouble.f64_fun W fuel L rnd docs E dbg cf d H 15 8 (op_rand (f64_num fuel) rnd) f eq_refl eq_refl A).
  - intros t d H. exact (PropRandom.int_fun W t dbg L rnd docs E cf d H 15 8 (op_rand (int_num t dbg) rnd) f eq_refl eq_refl A).
Qed.
Print Assumptions C110_random_known.

(** ** Complex numbers *)
(** [log(x, b)] of a real [b] is always refused, for want of a real base. *)
Theorem C110_complex_log : forall W (rnd : W -> f64 * W) show E ty odd L debug dbg cf d f x b w, ascii_alike f (lit "log") -> complex_context L rnd E dbg cf = Ok d ->
  f_is_zero (im b) = true -> tell_function (to_ctx E d) (complex_voice rnd show E ty odd L debug) f [x; b] w = (Errs InvalidInput (lit "Expected decimal base"), w).
Proof.
  intros W rnd show E ty odd L debug dbg cf d f x b w A H Z. unfold tell_function. rewrite (ProofComplex.cx_fun L rnd E dbg cf d H 5 (z_log L) f eq_refl A). unfold outcome. cbn [v_function complex_voice].
  assert (N : eq_ignore_case E f (lit "random") = false) by (rewrite (eq_ic_lower E f (lit "log") (lit "random") (lit "random") (alike_lower E _ _ A) eq_refl); reflexivity).
  rewrite N, (log_is E f A). unfold z_log, fun_. cbn [fn_call]. rewrite Z. cbn [negb lift]. unfold complex_log_m. rewrite Z. reflexivity.
Qed.
Print Assumptions C110_complex_log.
(** [random] of complex numbers refuses as invalid input an argument that is not real, and two reals of which either is negative, and of these it
    says that the first exceeds the second, whether or not it does. *)
Theorem C110_complex_random : forall W (rnd : W -> f64 * W) show E ty odd L debug dbg cf d f args w m w', ascii_alike f (lit "random") -> complex_context L rnd E dbg cf = Ok d ->
  tell_function (to_ctx E d) (complex_voice rnd show E ty odd L debug) f args w = (Errs InvalidInput m, w') <->
  w' = w /\ (List.length args = 1 \/ List.length args = 2)%nat /\
  ((exists x, In x args /\ f_is_zero (im x) = false) /\ m = lit "Random(...) only accepts real numbers as arguments" \/
   exists x y, args = [x; y] /\ f_is_zero (im x) = true /\ f_is_zero (im y) = true /\ (f_sign_negative (re x) = true \/ f_sign_negative (re y) = true) /\
     m = lit "Invalid `Random` arguments: `min > max`, " ++ show (re x) ++ lit " > " ++ show (re y)).
Proof.
  intros W rnd show E ty odd L debug dbg cf d f args w m w' A H. unfold tell_function. rewrite (ProofComplex.cx_fun L rnd E dbg cf d H 6 (z_rand rnd) f eq_refl A). unfold outcome. rewrite <- (complex_rand_same W rnd show args w). cbn [v_function complex_voice]. rewrite (random_is E f A). unfold hears_.
  unfold complex_rand_m, tbind_w, try_get_real_m. split.
  - destruct args as [|x [|y [|]]].
    + destruct (rnd w) as [r w1]. destruct (rnd w1). discriminate.
    + destruct (f_is_zero (im x)) eqn:Zx; cbn [negb fst snd heard].
      * destruct (f_sign_negative (re x)); [discriminate|]. destruct (rnd w) as [r w1]. destruct (rnd w1). discriminate.
      * cbn [text_from]. intros X. injection X as <- <-. split; [reflexivity|]. split; [left; reflexivity|]. left. split; [|reflexivity]. exists x. split; [left; reflexivity|exact Zx].
    + destruct (f_is_zero (im x)) eqn:Zx; cbn [negb fst snd heard].
      * destruct (f_is_zero (im y)) eqn:Zy; cbn [negb fst snd heard].
        -- destruct (f_sign_negative (re x) || f_sign_negative (re y))%bool eqn:Ng.
           ++ cbn [fst snd heard text_from]. intros X. injection X as <- <-. split; [reflexivity|]. split; [right; reflexivity|]. right. exists x, y. apply orb_prop in Ng. repeat split; assumption.
           ++ destruct (rnd w) as [r w1]. destruct (rnd w1). discriminate.
        -- cbn [text_from]. intros X. injection X as <- <-. split; [reflexivity|]. split; [right; reflexivity|]. left. split; [|reflexivity]. exists y. split; [right; left; reflexivity|exact Zy].
      * cbn [text_from]. intros X. injection X as <- <-. split; [reflexivity|]. split; [right; reflexivity|]. left. split; [|reflexivity]. exists x. split; [left; reflexivity|exact Zx].
    + discriminate.
  - intros (-> & Ln & [[(x & I & Zx) ->]|(x & y & -> & Zx & Zy & Ng & ->)]).
    + destruct args as [|a [|b [|]]]; try (destruct Ln; discriminate).
      * destruct I as [->|[]]. rewrite Zx. reflexivity.
      * destruct (f_is_zero (im a)) eqn:Za; cbn [negb fst snd heard]; [|reflexivity]. destruct I as [->|[->|[]]]; [congruence|]. rewrite Zx. reflexivity.
    + rewrite Zx. cbn [negb]. rewrite Zy. cbn [negb]. rewrite (proj2 (orb_true_iff _ _) Ng). reflexivity.
Qed.
Print Assumptions C110_complex_random.

(** ** The server *)
(** The response to the outcome of an evaluation: the shown result, the text of the error's kind, or none. *)
Definition reports {V W} (post : W -> res (N * list N) * W) (ps : list (str * str)) (show : V -> str) (r : res V * W) (w : W) : Prop :=
  match r with
  | (Ok v, w') => unicode_string (show v) -> exists b, post w = (Ok (200%N, b), w') /\ (once ps "only_result" (lit "true") -> b = utf8 (show v)) /\
      (~ once ps "only_result" (lit "true") -> bytes_of (JObject [(lit "result", JString (show v)); (lit "error", JNull)]) b)
  | (Err k, w') => exists b, post w = (Ok (200%N, b), w') /\ bytes_of (JObject [(lit "result", JNull); (lit "error", JString (kind_text k))]) b
  | (Panic, w') => post w = (Panic, w')
  end.
(** The kinds of errors of which nothing but the kind is said. *)
Definition kind_only (k : errkind) : Prop := k <> Empty /\ k <> InvalidInput /\ k <> InvalidExpression.
Definition by_kind {V} (r : res V) : Prop := forall k, r = Err k -> kind_only k.
Lemma kind_unicode : forall k, unicode_string (kind_text k).
Proof.
  intros k. assert (X : forall s, forallb is_scalar s = true -> unicode_string s) by (intros s H; apply Forall_forall; intros c I; rewrite forallb_forall in H; exact (H c I)).
  apply X. destruct k; reflexivity.
Qed.
Theorem C110_every_type : forall D W (sv : service D W) (G : tongues D W) E dbg number otherwise a j t rest q query ps ty V (k : kind V W) g,
  white a -> SpecJson.value_text j t -> ends j rest -> unicode_string (a ++ t ++ rest) -> request_of number j q -> query_is query ps -> asked q = ty -> spoken sv G E dbg ty V k g -> PropMessage.plain_voice (t_voice g) ->
  exists d, k_context k (server_settings ty) = Ok d /\ (forall x, get_variable (to_ctx E d) x = None) /\ forall w, Forall (accepted sv E dbg (k_read k) d) (given q) -> exists d', with_variables sv E (k_read k) d (given q) d' /\
  let r := eval (to_ctx E d') (k_parse k) (split_into_tokens (k_rules k)) dbg (q_expression q) w in
  by_kind (fst r) -> reports (post_eval_m sv G E dbg number otherwise (utf8 (a ++ t ++ rest)) query) ps (k_show k) r w.
Proof.
  intros D W sv G E dbg number otherwise a j t rest q query ps ty V k g A T R U Q P Ty S Pl.
  destruct (PropSpoken.C109_bytes D W sv G E dbg number otherwise a j t rest q query ps ty V k g A T R U Q P Ty S) as (d & Hd & H). exists d. split; [exact Hd|].
  split. { pose proof (PropJson.request_complete number j q Q) as (q' & _ & Sq). pose proof (PropEndToEnd.nodup_given q q' Sq) as Nd. pose proof Sq as (_ & St & _).
    assert (Ty' : asked q' = ty) by (unfold asked in *; rewrite <- St; exact Ty).
    destruct (PropServer.C37_values D W sv E dbg q' ty V k Ty' (ProofSpoken.spoken_serves sv G E dbg ty V k g S) Nd) as (d2 & Hd2 & Hno & _). rewrite Hd in Hd2. injection Hd2 as <-. exact Hno. }
  intros w F. destruct (proj1 (H w) F) as (d' & Hd' & X). exists d'. split; [exact Hd'|]. intros r. unfold r. clear r. rewrite <- (eval_same (to_ctx E d') (t_voice g) dbg (k_parse k) (split_into_tokens (k_rules k)) (q_expression q) w).
  pose proof (fun kk m w' => PropMessage.C108_kinds V W (to_ctx E d') (t_voice g) dbg (k_parse k) (split_into_tokens (k_rules k)) (q_expression q) w kk m w' Pl) as C.
  destruct (eval_m _ _ _ _ _ _ _) as [[v|kk m|] w1]; cbn [hears heard fst snd]; intros B; cbn [reports].
  - exact X.
  - destruct (B kk eq_refl) as (N1 & N2 & N3). destruct (C kk m w1 eq_refl) as [Y|[Y|[Y| ->]]]; try contradiction. apply X. apply kind_unicode.
  - exact X.
Qed.
Print Assumptions C110_every_type.

(** The errors of the calculator of integers. *)
Lemma then_err : forall A B (r : res A) (f : A -> res B) k, then_ r f = Err k -> r = Err k \/ exists x, r = Ok x /\ f x = Err k.
Proof. intros A B [x|k0|] f k H; cbn [then_] in H; [right; exists x; auto|left; injection H as ->; reflexivity|discriminate]. Qed.
Definition arithmetic (k : errkind) : Prop := In k [Overflow; DivisionByZero; NegativeValue; InvalidArgumentCount].
Lemma put_err : forall t z k, put t z = Err k -> arithmetic k.
Proof. intros t z k H. unfold put in H. destruct (within t z); [discriminate|]. injection H as <-. left. reflexivity. Qed.
Lemma running_err : forall t op zs z k, running t op z zs = Err k -> arithmetic k.
Proof. induction zs as [|x zs IH]; cbn [running]; intros z k H; [discriminate|]. apply then_err in H. destruct H as [H|(y & _ & H)]; [exact (put_err _ _ _ H)|exact (IH _ _ H)]. Qed.
Lemma collect_err : forall (rs : list (res Z)) k, collect rs = Err k -> In (Err k) rs.
Proof. induction rs as [|r rs IH]; cbn [collect]; intros k H; [discriminate|]. apply then_err in H. destruct H as [H|(y & _ & H)]; [left; exact H|]. apply then_err in H. destruct H as [H|(z & _ & H)]; [right; exact (IH _ H)|discriminate]. Qed.
Lemma named_other : forall x names n, one_of (n :: names) x -> named x n = false -> one_of names x.
Proof. intros x names n (m & [<-|I] & N) H; [congruence|]. exists m. auto. Qed.
Lemma in_join : forall A (sep : list A) l (ls : list (list A)) x, In x l -> In l ls -> In x (join sep ls).
Proof.
  induction ls as [|l0 ls IH]; intros x I J; [destruct J|]. destruct ls as [|l1 ls]; [destruct J as [->|[]]; exact I|]. change (join sep (l0 :: l1 :: ls)) with (l0 ++ sep ++ join sep (l1 :: ls)). apply in_or_app.
  destruct J as [->|J]; [left; exact I|]. right. apply in_or_app. right. exact (IH x I J).
Qed.
Lemma argc : arithmetic InvalidArgumentCount. Proof. right. right. right. left. reflexivity. Qed.
Lemma divz : arithmetic DivisionByZero. Proof. right. left. reflexivity. Qed.
Lemma calc_errors : forall t dbg vars L (e : expr Z) ws k, calculator (fun _ => False) e -> Forall2 (calc_word t vars) (print e) ws -> calc t dbg vars (PropCalculator.double_power L t) (fun _ _ => Panic) e = Err k -> arithmetic k.
Proof.
  intros t dbg vars L e. assert (V : forall l : list (token Z), forall ws x, Forall2 (calc_word t vars) l ws -> In (TVariable x) l -> vars x <> None).
  { induction l as [|tk l IH]; intros ws x F I; [destruct I|]. inversion F as [|? u ? us F1 F2]; subst. destruct I as [->|I]; [exact (proj2 (proj2 F1))|exact (IH _ _ F2 I)]. }
  intros ws k C F. assert (Vs : forall x, In (TVariable x) (print e) -> vars x <> None) by (intros x; exact (V _ ws x F)). clear V F ws. revert k C Vs.
  induction e as [v|x|x|g e IH|f g args IH|u e IH|e u IH|o l r IHl IHr|l r IHl IHr] using expr_ind'; intros k C Vs H; cbn [calc calculator print] in *.
  - discriminate.
  - specialize (Vs x (or_introl eq_refl)). destruct (vars x); [discriminate|congruence].
  - destruct C as (m & [<-|[<-|[]]] & N); rewrite N in H; [discriminate|]. destruct (named x "pi"); discriminate.
  - apply (IH k C); [|exact H]. intros x I. apply Vs. cbn [app]. right. apply in_or_app. left. exact I.
  - destruct C as [[C|[]] Ca]. apply then_err in H. destruct H as [H|(zs & _ & H)].
    + apply collect_err in H. apply in_map_iff in H. destruct H as (a & Ha & Ia). rewrite Forall_forall in IH. apply (IH a Ia k); [|intros x I; apply Vs|exact Ha].
      * clear - Ca Ia. induction args as [|b args IH]; [destruct Ia|]. destruct Ca as [Cb Cs]. destruct Ia as [->|Ia]; [exact Cb|exact (IH Cs Ia)].
      * cbn [app]. right. right. apply in_or_app. left. apply (in_join _ _ (print a)); [exact I|apply in_map; exact Ia].
    + unfold call in H. repeat match type of H with (if named f ?n then _ else _) = _ => let N := fresh "N" in destruct (named f n) eqn:N; [|apply named_other in C; [|exact N]] end.
      * destruct zs as [|z zs]; [injection H as <-; exact argc|exact (running_err _ _ _ _ _ H)].
      * destruct zs as [|z zs]; [injection H as <-; exact argc|exact (running_err _ _ _ _ _ H)].
      * destruct zs as [|z zs]; [injection H as <-; exact argc|]. apply then_err in H. destruct H as [H|(s & _ & H)]; [exact (running_err _ _ _ _ _ H)|]. destruct (within _ _); [exact (put_err _ _ _ H)|discriminate].
      * destruct zs as [|z [|z' zs]]; try discriminate; injection H as <-; exact argc.
      * destruct zs as [|z [|z' zs]]; try discriminate; injection H as <-; exact argc.
      * destruct zs as [|z [|z' zs]]; [injection H as <-; exact argc|exact (put_err _ _ _ H)|injection H as <-; exact argc].
      * destruct C as (m & [] & _).
  - apply then_err in H. destruct H as [H|(z & _ & H)]; [apply (IH k (proj2 C)); [intros x I; apply Vs; right; exact I|exact H]|]. destruct (named u "-"); [exact (put_err _ _ _ H)|discriminate].
  - apply then_err in H. destruct H as [H|(z & _ & H)]; [apply (IH k (proj1 (proj2 C))); [intros x I; apply Vs; apply in_or_app; left; exact I|exact H]|].
    unfold factorial_of in H. destruct (_ <? 0)%Z; [injection H as <-; right; right; left; reflexivity|]. destruct (within _ _); [discriminate|]. destruct dbg; discriminate.
  - destruct C as (_ & Cl & Cr). apply then_err in H. destruct H as [H|(x & _ & H)]; [apply (IHl k Cl); [intros y I; apply Vs; apply in_or_app; left; exact I|exact H]|].
    apply then_err in H. destruct H as [H|(y & _ & H)]; [apply (IHr k Cr); [intros z I; apply Vs; apply in_or_app; right; right; exact I|exact H]|].
    unfold operation in H. repeat match type of H with (if named o ?n then _ else _) = _ => destruct (named o n) end; try exact (put_err _ _ _ H).
    + destruct (y =? 0)%Z; [injection H as <-; exact divz|exact (put_err _ _ _ H)].
    + destruct (y =? 0)%Z; [injection H as <-; exact divz|]. apply then_err in H. destruct H as [H|(z & _ & H)]; [exact (put_err _ _ _ H)|discriminate].
    + unfold PropCalculator.double_power in H. destruct (f_trunc_Z _); [exact (put_err _ _ _ H)|injection H as <-; left; reflexivity].
  - destruct C as (Cl & Cr). apply then_err in H. destruct H as [H|(x & _ & H)]; [apply (IHl k Cl); [intros y I; apply Vs; apply in_or_app; left; exact I|exact H]|].
    apply then_err in H. destruct H as [H|(y & _ & H)]; [apply (IHr k Cr); [intros z I; apply Vs; apply in_or_app; right; exact I|exact H]|]. exact (put_err _ _ _ H).
Qed.
(** Requests for integers: the bytes of the result, or of the kind of the error, which is one of four, or nothing. *)
Theorem C110_integers : forall D W (sv : service D W) (G : tongues D W) E dbg number otherwise a j t rest q vars query ps,
  white a -> SpecJson.value_text j t -> ends j rest -> unicode_string (a ++ t ++ rest) -> request_of number j q -> query_is query ps -> q_type q = Some NInteger -> PropMessage.plain_voice (t_voice (g_integer G)) ->
  (forall x z, vars x = Some z <-> PropCalculator.request_variable D W sv q x z) ->
  exists d, integers sv E dbg (server_settings NInteger) = Ok d /\ (Forall (accepted sv E dbg (parse_int i128) d) (given q) ->
  forall e ws w, calculator (fun _ => False) e -> grouped true false e -> Forall2 (calc_word i128 vars) (print e) ws -> lexes (q_expression q) ws ->
  let r := calc i128 dbg vars (PropCalculator.double_power (s_libm sv) i128) (fun _ _ => Panic) e in
  (forall k, r = Err k -> In k [Overflow; DivisionByZero; NegativeValue; InvalidArgumentCount]) /\
  reports (post_eval_m sv G E dbg number otherwise (utf8 (a ++ t ++ rest)) query) ps show_int (r, w) w).
Proof.
  intros D W sv G E dbg number otherwise a j t rest q vars query ps A T R U Q P Ty Pl Hvars. assert (Ha : asked q = NInteger) by (unfold asked; rewrite Ty; reflexivity).
  destruct (C110_every_type D W sv G E dbg number otherwise a j t rest q query ps NInteger Z _ _ A T R U Q P Ha (Spoken_integer sv G E dbg) Pl) as (d & Hd & Hno & H).
  cbn [k_context k_read k_show k_parse k_rules integer_kind] in *. exists d. split; [exact Hd|]. intros Acc e ws w Hc Hg Hw Hl. split; [intros k Hk; exact (calc_errors _ _ _ _ e ws k Hc Hw Hk)|].
  destruct (H w Acc) as (d' & (Hs & Hout & Hin) & X). clear H.
  assert (V : forall x, get_variable (to_ctx E d') x = vars x).
  { intros x. destruct (in_dec (list_eq_dec N.eq_dec) x (map fst (given q))) as [I|I].
    - apply in_map_iff in I. destruct I as ((x' & v) & <- & I). cbn [fst]. rewrite (Hin _ _ I). destruct (parse_int i128 (SpecServer.value_text sv v)) as [z|] eqn:Pz.
      + symmetry. apply Hvars. exists v. split; [exact I|]. apply (ProofParse.parse_int_spec i128) in Pz; [|reflexivity]. exact Pz.
      + exfalso. rewrite Forall_forall in Acc. destruct (Acc _ I) as [_ K]. exact (K Pz).
    - rewrite (Hout _ I), Hno. destruct (vars x) as [z|] eqn:K; [|reflexivity]. exfalso. apply Hvars in K. destruct K as (v & Iv & _). apply I. apply in_map_iff. exists (x, v). auto. }
  assert (Fi : forall x z, get_variable (to_ctx E d') x = Some z -> SpecOps.fits i128 z) by (intros x z K; rewrite V in K; apply Hvars in K; destruct K as (v & _ & _ & K); exact K).
  assert (Hw' : Forall2 (calc_word i128 (get_variable (to_ctx E d'))) (print e) ws) by (clear - Hw V; induction Hw as [|tk u tks us B _ IH]; constructor; [|exact IH]; destruct tk; cbn [calc_word] in *; rewrite ?V; exact B).
  change (split_into_tokens default_splitter) with PropLex.dsplitter in X.
  rewrite (PropCalculator.C87_text W i128 dbg (s_libm sv) (s_random sv) (s_docs sv) E _ d d' ltac:(discriminate) Hd Hs Fi (fun _ _ => Panic) (fun _ => False) ltac:(intros f []) e _ ws w Hc Hg Hw' Hl ltac:(discriminate)) in X.
  rewrite (ProofCalculator.calc_vars _ _ _ _ _ _ V e) in X. apply X. intros k Hk. cbn [fst] in Hk. pose proof (calc_errors _ _ _ _ e ws k Hc Hw Hk) as B. cbn [In arithmetic] in B. repeat split; intros ->; repeat (destruct B as [B|B]; try discriminate B); exact B.
Qed.
Print Assumptions C110_integers.
(** Decimals and floats: so are the errors of these kinds. *)
Theorem C110_decimals : forall D W (sv : service D W) (G : tongues D W) value E dbg number otherwise a j t rest q query ps, SpecDecimal.exact_decimals (s_dlib sv) value -> (64 <= s_fuel sv)%nat ->
  white a -> SpecJson.value_text j t -> ends j rest -> unicode_string (a ++ t ++ rest) -> request_of number j q -> query_is query ps -> q_type q = None \/ q_type q = Some NDecimal -> PropMessage.plain_voice (t_voice (g_decimal G)) ->
  exists d, decimals sv E dbg (server_settings NDecimal) = Ok d /\ (Forall (accepted sv E dbg (s_read_decimal sv) d) (given q) -> forall w,
  exists d', with_variables sv E (s_read_decimal sv) d (given q) d' /\
  forall vars e r, (forall x, vars x = option_map value (get_variable (to_ctx E d') x)) -> wf (to_ctx E d') e -> text_of (to_ctx E d') (s_read_decimal sv) e (q_expression q) -> SpecDecCalc.decimal value vars e = Some r -> by_kind r ->
  exists z, SpecDecCalc.agrees value z r /\ reports (post_eval_m sv G E dbg number otherwise (utf8 (a ++ t ++ rest)) query) ps (s_show_decimal sv) (z, w) w).
Proof.
  intros D W sv G value E dbg number otherwise a j t rest q query ps EX Hf A T R U Q P Hq Pl. assert (Ha : asked q = NDecimal) by (unfold asked; destruct Hq as [-> | ->]; reflexivity).
  destruct (C110_every_type D W sv G E dbg number otherwise a j t rest q query ps NDecimal D _ _ A T R U Q P Ha (Spoken_decimal sv G E dbg) Pl) as (d & Hd & _ & H). cbn [k_context k_read k_show k_parse k_rules decimal_kind] in *.
  exists d. split; [exact Hd|]. intros F w. destruct (H w F) as (d' & Hd' & An). exists d'. split; [exact Hd'|]. intros vars e r Hv Hwf Ht Hr Bk.
  destruct (PropDecCalc.C96_text D W (s_dlib sv) value EX (s_fuel sv) (s_random sv) E dbg _ d d' Hf Hd (proj1 Hd') vars) with (parse := s_read_decimal sv) (e := e) (s := q_expression q) (r := r) (w := w) as (z & Ez & Z); try assumption.
  - intros x. rewrite Hv. destruct (get_variable (to_ctx E d') x); cbn [option_map]; [apply Qeq_refl|exact I].
  - exists z. split; [exact Z|]. change (split_into_tokens default_splitter) with PropLex.dsplitter in An. rewrite Ez in An. apply An. intros k Hk. cbn [fst] in Hk. subst z. destruct r as [v|k'|]; cbn in Z; try contradiction. subst k'. exact (Bk k eq_refl).
Qed.
Print Assumptions C110_decimals.
Theorem C110_floats : forall D W (sv : service D W) (G : tongues D W) E dbg number otherwise a j t rest q query ps,
  white a -> SpecJson.value_text j t -> ends j rest -> unicode_string (a ++ t ++ rest) -> request_of number j q -> query_is query ps -> q_type q = Some NFloat -> PropMessage.plain_voice (t_voice (g_float G)) ->
  exists d, checked_floats sv E dbg (server_settings NFloat) = Ok d /\ (Forall (accepted sv E dbg (s_read_f64 sv) d) (given q) -> forall w,
  exists d', with_variables sv E (s_read_f64 sv) d (given q) d' /\
  forall e, SpecDoubleCalc.known true (s_docs sv) e -> wf (to_ctx E d') e -> text_of (to_ctx E d') (s_read_f64 sv) e (q_expression q) ->
  exists r, SpecDoubleCalc.worth (s_libm sv) (get_variable (to_ctx E d')) (s_float_fuel sv) true (s_docs sv) e r /\
    (by_kind r -> reports (post_eval_m sv G E dbg number otherwise (utf8 (a ++ t ++ rest)) query) ps (s_show_f64 sv) (r, w) w)).
Proof.
  intros D W sv G E dbg number otherwise a j t rest q query ps A T R U Q P Hq Pl. assert (Ha : asked q = NFloat) by (unfold asked; rewrite Hq; reflexivity).
  destruct (C110_every_type D W sv G E dbg number otherwise a j t rest q query ps NFloat f64 _ _ A T R U Q P Ha (Spoken_float sv G E dbg) Pl) as (d & Hd & _ & H). cbn [k_context k_read k_show k_parse k_rules float_kind] in *.
  exists d. split; [exact Hd|]. intros F w. destruct (H w F) as (d' & Hd' & An). exists d'. split; [exact Hd'|]. intros e K Hwf Ht.
  destruct (PropDoubleCalc.C105_text W (s_float_fuel sv) (s_libm sv) (s_random sv) true (s_docs sv) E dbg _ d d' Hd (proj1 Hd') (s_read_f64 sv) e (q_expression q) w K Hwf Ht) as (r & R1 & Ez).
  exists r. split; [exact R1|]. change (split_into_tokens default_splitter) with PropLex.dsplitter in An. rewrite Ez in An. exact An.
Qed.
Print Assumptions C110_floats.

(** ** Cases *)
(** The other hypotheses of C110_every_type and C110_integers are those of C103_integers, met in C103_case; those of C110_decimals and C110_floats are met in C96's and C105's cases. *)
Definition shown (x : f64) : str := match f_trunc_Z x with Some z => show_int z | None => lit "?" end.
Definition nothing : unit -> f64 * unit := fun w => (f_zero, w).
Definition voices : tongues ProofDecRef.dec unit :=
  Tongues ProofDecRef.dec unit PropSpoken.silent PropSpoken.silent (Tongue (number_voice nothing shown std_env (lit "i128") (fun ch => [ch]) (int_num i128 true) show_int) (fun s => lit "no number: " ++ s))
    PropSpoken.silent PropSpoken.plain_tongue.
Definition voice_post (body : string) : res (N * list N) := fst (post_eval_m PropServer.example_service voices std_env true (fun _ => None) (fun _ => NotUtf8) (utf8 (lit body)) [] tt).
Example C110_voices : PropMessage.plain_voice (t_voice (g_integer voices)).
Proof. exact (proj1 (C110_plain Z unit nothing shown std_env (lit "i128") (fun ch => [ch]) (int_num i128 true) PropComplex.no_clib show_int (fun _ => []))). Qed.
Example C110_case :
  voice_post "{""type"":""integer"",""expression"":""Random(5, 3)"",""variables"":{}}" = Ok (200%N, utf8 (lit "{""result"":null,""error"":""Invalid range for `Random`: min > max, 5 > 3""}")) /\
  voice_post "{""type"":""integer"",""expression"":""random(3, 5)"",""variables"":{}}" = Ok (200%N, utf8 (lit "{""result"":""3"",""error"":null}")) /\
  voice_post "{""type"":""integer"",""expression"":""random(-3)"",""variables"":{}}" = Ok (200%N, utf8 (lit "{""result"":null,""error"":""Value is negative""}")) /\
  voice_post "{""type"":""integer"",""expression"":""max(1)"",""variables"":{}}" = Ok (200%N, utf8 (lit "{""result"":null,""error"":""Invalid number of arguments""}")) /\
  voice_post "{""type"":""integer"",""expression"":""99999999999999999999 * 99999999999999999999"",""variables"":{}}" = Ok (200%N, utf8 (lit "{""result"":null,""error"":""Value has overflow""}")).
Proof. repeat match goal with |- _ /\ _ => split end; vm_compute; reflexivity. Qed.
Definition complex_told (s : string) (args : list (Z * Z)) : option str :=
  match complex_context PropComplex.no_clib nothing std_env true plain_config with
  | Ok d => match fst (tell_function (to_ctx std_env d) (complex_voice nothing shown std_env (lit "c") (fun ch => [ch]) PropComplex.no_clib (fun _ => [])) (lit s) (map (fun p => (f_of_Z (fst p), f_of_Z (snd p))) args) tt) with Errs InvalidInput m => Some m | _ => None end
  | _ => None end.
(** [log(8, 2)] wants a decimal base; [random(-1, 3)] says that -1 exceeds 3. *)
Example C110_complex_case :
  complex_told "log" [(8, 0); (2, 0)]%Z = Some (lit "Expected decimal base") /\ complex_told "Random" [(-1, 0); (3, 0)]%Z = Some (lit "Invalid `Random` arguments: `min > max`, -1 > 3") /\
  complex_told "random" [(1, 2)]%Z = Some (lit "Random(...) only accepts real numbers as arguments") /\ complex_told "random" [(3, 0); (1, 0)]%Z = None.
Proof. repeat match goal with |- _ /\ _ => split end; vm_compute; reflexivity. Qed.
