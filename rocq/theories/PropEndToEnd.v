(** * C103: integer requests from bytes to bytes

    Vocabulary: SpecJson (JSON texts, requests, query strings), SpecCalculator (the calculator of integers), SpecLex and SpecTokenizer (the
    words of an expression), SpecServer (a request's variables), SpecEndToEnd (how an integer is written). *)
From Coq Require Import List NArith ZArith Bool Arith Lia String.
From Verif Require Import ModelBase ModelContext ModelEvaluator ModelText ModelSplit ModelTokenizer ModelDefault ModelFloat ModelNum ModelOps ModelParse ModelStd ModelServer
  SpecExpr SpecText SpecOps SpecLex SpecParse SpecTokenizer SpecRepl SpecServer SpecCalculator.
From Verif Require Import ModelJson SpecJson SpecEndToEnd.
From Verif Require PropServer PropServer2 PropCalculator PropJson PropLex.
Import ListNotations.
Local Open Scope string_scope.
Local Open Scope list_scope.

(** An integer is written as its canonical numeral. *)
Lemma digits_lead : forall fuel z acc, (0 < z < 2 ^ Z.of_nat fuel)%Z -> exists c s, decimal_digits fuel z acc = c :: s ++ acc /\ c <> 48%N.
Proof.
  induction fuel as [|fuel IH]; intros z acc H; [cbn in H; lia|]. cbn [decimal_digits]. destruct (Z.ltb_spec z 10) as [L|L].
  - exists (Z.to_N (48 + z mod 10)), []. split; [reflexivity|]. rewrite Z.mod_small by lia. intros X. apply (f_equal Z.of_N) in X. rewrite Z2N.id in X by lia. lia.
  - destruct (IH (z / 10)%Z (Z.to_N (48 + z mod 10) :: acc)) as (c & s & -> & N).
    { rewrite Nat2Z.inj_succ, Z.pow_succ_r in H by lia. split; [apply Z.div_str_pos; lia|]. apply Z.div_lt_upper_bound; lia. }
    exists c, (s ++ [Z.to_N (48 + z mod 10)]). split; [rewrite <- app_assoc; reflexivity|exact N].
Qed.
Lemma shown_natural : forall z, (0 <= z)%Z -> natural (decimal_digits (S (Z.to_nat (Z.log2 z))) z []) z.
Proof.
  intros z H. destruct (PropServer2.shown_digits z H) as (s & E & D & N). rewrite E. split; [exact D|]. split; [exact N|]. intros u X. destruct (Z.eq_dec z 0) as [->|Z0].
  - vm_compute in E. subst s. injection X as <-. reflexivity.
  - exfalso. destruct (digits_lead (S (Z.to_nat (Z.log2 z))) z []) as (c & v & Q & K).
    { split; [lia|]. rewrite Nat2Z.inj_succ, Z2Nat.id by apply Z.log2_nonneg. apply Z.log2_spec. lia. }
    rewrite E, X in Q. injection Q as <- _. apply K. reflexivity.
Qed.
Lemma shown_integer : forall z, writes z (show_int z).
Proof.
  intros z. unfold show_int. destruct (Z.ltb_spec z 0) as [N|N].
  - apply writes_negative; [exact N|apply shown_natural; lia].
  - apply writes_natural. apply shown_natural. exact N.
Qed.
Lemma digits_ascii : forall s z, digits 10 s z -> Forall (fun c => (c < 128)%N) s.
Proof. induction 1 as [|s v c d D IH B C]; [constructor|]. apply Forall_app. split; [exact IH|]. constructor; [lia|constructor]. Qed.
Lemma ascii_unicode : forall s, Forall (fun c => (c < 128)%N) s -> unicode_string s.
Proof. intros s. apply Forall_impl. intros c H. unfold is_scalar. destruct (N.ltb_spec c 55296); [reflexivity|lia]. Qed.
Lemma written_unicode : forall z, unicode_string (show_int z).
Proof. intros z. destruct (shown_integer z) as [z s [D _]|z s N [D _]]; apply ascii_unicode; [|constructor; [reflexivity|]]; exact (digits_ascii _ _ D). Qed.

Lemma same_given : forall q q', same_request q q' -> forall p, In p (given q) <-> In p (given q').
Proof. intros q q' (_ & _ & H) p. unfold given. destruct (q_variables q), (q_variables q'); try contradiction; [apply H|tauto]. Qed.
Lemma nodup_given : forall q q', same_request q q' -> NoDup (map fst (given q')).
Proof. intros q q' (_ & _ & H). unfold given. destruct (q_variables q), (q_variables q'); try contradiction; [apply H|constructor]. Qed.


Section Server.
Context {D W : Type}.
Variable sv : service D W.
Variable E : env.
Variable dbg : bool.
Variable number : str -> option f64.
Variable otherwise : str -> received.
Variable say : message -> str.

(** The answer to [POST /eval?query]: a status and bytes. *)
Definition post : list N -> str -> W -> res (N * list N) * W := post_eval sv E dbg number otherwise say.

(** The bytes of a request, of any type, are answered with what its evaluation gives (the order of its variables being that of a hash
    map): status 200 and the bytes of the result, bare if the query asks for it, or of the error. *)
Theorem C103_requests : forall a j t rest q query ps, white a -> SpecJson.value_text j t -> ends j rest -> unicode_string (a ++ t ++ rest) ->
  request_of number j q -> query_is query ps -> (forall m, unicode_string (say m)) ->
  exists q', same_request q q' /\ forall w,
  match eval_expression sv E dbg q' w with
  | (Ok (inl s), w') => unicode_string s -> exists b, post (utf8 (a ++ t ++ rest)) query w = (Ok (200%N, b), w') /\
      (once ps "only_result" (lit "true") -> b = utf8 s) /\
      (~ once ps "only_result" (lit "true") -> bytes_of (JObject [(lit "result", JString s); (lit "error", JNull)]) b)
  | (Ok (inr m), w') => exists b, post (utf8 (a ++ t ++ rest)) query w = (Ok (200%N, b), w') /\
      bytes_of (JObject [(lit "result", JNull); (lit "error", JString (say m))]) b
  | (Err _, _) => False
  | (Panic, w') => post (utf8 (a ++ t ++ rest)) query w = (Panic, w')
  end.
Proof.
  intros a j t rest q query ps A T R U Q P Um.
  assert (X : exists q', same_request q q' /\ forall only w, endpoint sv E dbg (receive number otherwise (utf8 (a ++ t ++ rest))) only w = endpoint sv E dbg (Received q') only w).
  { destruct (PropJson.request_complete number j q Q) as (q' & Q' & S). exists q'. split; [exact S|]. intros only w. rewrite (PropJson.body_read number otherwise a j t rest A T R U), Q'. reflexivity. }
  destruct X as (q' & S & X). exists q'. split; [exact S|]. intros w. destruct (eval_expression sv E dbg q' w) as [[[s|m]|k|] w'] eqn:H; unfold post, post_eval; rewrite ?X.
  - intros Us. destruct (PropJson.C100_only_result D W sv E dbg q' query ps s w w' P H) as [O1 O2].
    destruct (only_result query) as [[|]|] eqn:O; cbn [endpoint]; unfold bind, ret; rewrite H; cbn [respond evaluated_of]; eexists; (split; [reflexivity|]); cbn [endpoint] in O1, O2; unfold bind, ret in O1, O2; rewrite H in O1, O2; cbn [respond evaluated_of] in O1, O2; split; intros K;
      try (exfalso; first [specialize (O1 K)|specialize (O2 K)]; discriminate); try reflexivity;
      (apply PropJson.C99_written; apply PropJson.writable_pair; [intros s' Y; injection Y as <-; exact Us|discriminate|right; eauto|left; reflexivity]).
  - cbn [endpoint]. unfold bind, ret. rewrite H. cbn [respond evaluated_of]. eexists. split; [reflexivity|].
    apply PropJson.C99_written. apply PropJson.writable_pair; [discriminate|intros s Y; injection Y as <-; apply Um|left; reflexivity|right; eauto].
  - destruct (PropServer.C37_answers D W sv E dbg (Received q') None w) as [([st r] & Z)|(q1 & X1 & Z)]; cbn [endpoint] in Z; unfold bind in Z; [|injection X1 as <-]; rewrite H in Z; discriminate Z.
  - cbn [endpoint]. unfold bind. rewrite H. reflexivity.
Qed.

(** The bytes of a request for integers, whose variables are accepted and whose expression is written with the words of a calculation,
    are answered with status 200 and the bytes of the calculation's result (bare if the query asks for it), or of its error. *)
Theorem C103_integers : forall a j t rest q vars query ps, white a -> SpecJson.value_text j t -> ends j rest -> unicode_string (a ++ t ++ rest) ->
  request_of number j q -> q_type q = Some NInteger -> (forall x z, vars x = Some z <-> PropCalculator.request_variable D W sv q x z) ->
  query_is query ps -> (forall m, unicode_string (say m)) ->
  exists d, integers sv E dbg (server_settings NInteger) = Ok d /\ (Forall (accepted sv E dbg (parse_int i128) d) (given q) ->
  forall e ws w, calculator (fun _ => False) e -> grouped true false e -> Forall2 (calc_word i128 vars) (print e) ws -> lexes (q_expression q) ws ->
  match calc i128 dbg vars (PropCalculator.double_power (s_libm sv) i128) (fun _ _ => Panic) e with
  | Ok z => exists s b, writes z s /\ post (utf8 (a ++ t ++ rest)) query w = (Ok (200%N, b), w) /\
      (once ps "only_result" (lit "true") -> b = utf8 s) /\
      (~ once ps "only_result" (lit "true") -> bytes_of (JObject [(lit "result", JString s); (lit "error", JNull)]) b)
  | Err k => exists b, post (utf8 (a ++ t ++ rest)) query w = (Ok (200%N, b), w) /\
      bytes_of (JObject [(lit "result", JNull); (lit "error", JString (say (Failure k)))]) b
  | Panic => post (utf8 (a ++ t ++ rest)) query w = (Panic, w)
  end).
Proof.
  intros a j t rest q vars query ps A T R U Q Ty V P Um.
  destruct (C103_requests a j t rest q query ps A T R U Q P Um) as (q' & S & X). pose proof (same_given q q' S) as G. pose proof (nodup_given q q' S) as Nd. destruct S as (Se & St & _).
  assert (V' : forall x z, vars x = Some z <-> PropCalculator.request_variable D W sv q' x z).
  { intros x z. rewrite V. unfold PropCalculator.request_variable. split; intros (v & I & H); exists v; (split; [apply G; exact I|exact H]). }
  destruct (PropCalculator.C88_server D W sv E dbg q' vars ltac:(congruence) Nd V') as (d & Hd & H). exists d. split; [exact Hd|].
  intros Acc e ws w Hc Hg Hw Hl.
  assert (Acc' : Forall (accepted sv E dbg (parse_int i128) d) (given q')) by (rewrite Forall_forall in Acc |- *; intros p I; apply Acc; apply G; exact I).
  rewrite Se in Hl. specialize (H Acc' e ws w Hc Hg Hw Hl). specialize (X w). rewrite H in X.
  destruct (calc i128 dbg vars (PropCalculator.double_power (s_libm sv) i128) (fun _ _ => Panic) e) as [z|k|]; cbn [answer_to] in X.
  - destruct (X (written_unicode z)) as (b & B). exists (show_int z), b. split; [apply shown_integer|exact B].
  - exact X.
  - exact X.
Qed.
End Server.
Print Assumptions C103_requests.
Print Assumptions C103_integers.

(** The hypotheses are met, with the expression of [C87_case] (its words, its tree and its result are given there) and a space before the
    request and after it; and the answers, as they leave the server. *)
Definition case_json : json := JObject [(lit "expression", JString (lit PropCalculator.case_text)); (lit "type", JString (lit "integer"));
  (lit "variables", JObject [(lit "x", JString (lit "4")); (lit "y", JString (lit "-3"))])].
Definition case_body : str := lit " {""expression"":""2Max(x, Pi)! - sum(4, -y) mod 5^2"",""type"":""integer"",""variables"":{""x"":""4"",""y"":""-3""}} ".
Definition no_number (s : str) : option f64 := None.
Example C103_case : (exists a t, case_body = a ++ t ++ [32%N] /\ white a /\ SpecJson.value_text case_json t /\ ends case_json [32%N]) /\ unicode_string case_body /\
  (exists v, request_of no_number case_json (Request (lit PropCalculator.case_text) (Some NInteger) (Some v)) /\ forall p, In p v <-> In p (given PropCalculator.case_request)) /\
  query_is (lit "only_result=true&x") [(lit "only_result", lit "true"); (lit "x", [])] /\
  let ask s := fst (post PropCalculator.case_service std_env true no_number (fun _ => NotUtf8) (fun _ => lit "no") (utf8 case_body) (lit s) tt) in
  ask "only_result=true&x" = Ok (200%N, utf8 (lit "41")) /\ ask "" = Ok (200%N, utf8 (lit "{""result"":""41"",""error"":null}")).
Proof.
  split. { destruct (ProofJson.json_sound case_body case_json [32%N]) as (a & t & A & B & T); [vm_compute; reflexivity|]. exists a, t. split; [exact B|]. split; [exact A|]. split; [exact T|exact I]. }
  split. { apply Forall_forall. apply forallb_forall. vm_compute. reflexivity. }
  split. { exists (given PropCalculator.case_request). split; [apply PropJson.request_sound; vm_compute; reflexivity|intros p; reflexivity]. }
  split. { replace [(lit "only_result", lit "true"); (lit "x", [])] with (query_pairs (lit "only_result=true&x")) by (vm_compute; reflexivity). apply PropJson.C100_reading. }
  split; vm_compute; reflexivity.
Qed.
