(** * C106: requests of every type from bytes to bytes

    Vocabulary: SpecJson (JSON texts, requests, query strings), SpecServer (the types served, a request's variables), SpecDecCalc (the
    calculator of rationals), SpecDoubleCalc (the calculator of doubles). *)
From Coq Require Import List NArith ZArith QArith Bool Arith Lia String.
From Verif Require Import ModelBase ModelContext ModelEvaluator ModelText ModelSplit ModelTokenizer ModelDefault ModelFloat ModelNum ModelOps ModelParse ModelStd ModelServer
  SpecExpr SpecText SpecOps SpecLex SpecParse SpecTokenizer SpecRepl SpecServer SpecDecimal.
From Verif Require Import ModelJson SpecJson.
From Verif Require PropLex ProofDecRef PropServer PropJson PropEndToEnd PropDecCalc PropDoubleCalc SpecDoubleCalc SpecDecCalc ModelDecimal PropSource PropOps PropComplex PropDouble PropCalculator SpecExact.
Import ListNotations.
Local Open Scope string_scope.
Local Open Scope list_scope.

(** The answer to bytes: a shown result, an error, or none. *)
Definition answered {D W} (sv : service D W) E dbg number otherwise say body query ps {V} (show : V -> str) (r : res V * W) (w : W) : Prop :=
  let post := post_eval sv E dbg number otherwise say in
  match r with
  | (Ok v, w') => unicode_string (show v) -> exists b, post body query w = (Ok (200%N, b), w') /\
      (once ps "only_result" (lit "true") -> b = utf8 (show v)) /\
      (~ once ps "only_result" (lit "true") -> bytes_of (JObject [(lit "result", JString (show v)); (lit "error", JNull)]) b)
  | (Err k, w') => exists b, post body query w = (Ok (200%N, b), w') /\ bytes_of (JObject [(lit "result", JNull); (lit "error", JString (say (Failure k)))]) b
  | (Panic, w') => post body query w = (Panic, w')
  end.

Lemma same_variables : forall D W (sv : service D W) E V (read : str -> option V) d ps ps' d', (forall p : str * ModelServer.variable, In p ps <-> In p ps') -> with_variables sv E read d ps' d' -> with_variables sv E read d ps d'.
Proof.
  intros D W sv E V read d ps ps' d' S (A & B & C). split; [exact A|]. split; [|intros x t I; apply C, S; exact I].
  intros x N. apply B. intros I. apply N. apply in_map_iff in I. destruct I as (p & <- & I). apply in_map. apply S. exact I.
Qed.

(** Every type: the bytes of a request whose variables are accepted are answered with the evaluation of its expression in the context of
    its type with these variables, and those of one whose variables are not with an error. *)
Theorem C106_every_type : forall D W (sv : service D W) E dbg number otherwise say a j t rest q query ps ty V (k : kind V W), white a -> SpecJson.value_text j t -> ends j rest -> unicode_string (a ++ t ++ rest) ->
  request_of number j q -> query_is query ps -> (forall m, unicode_string (say m)) -> asked q = ty -> serves sv E dbg ty V k ->
  exists d, k_context k (server_settings ty) = Ok d /\ (forall x, get_variable (to_ctx E d) x = None) /\
  forall w, (Forall (accepted sv E dbg (k_read k) d) (given q) -> exists d', with_variables sv E (k_read k) d (given q) d' /\
     answered sv E dbg number otherwise say (utf8 (a ++ t ++ rest)) query ps (k_show k) (eval (to_ctx E d') (k_parse k) (split_into_tokens (k_rules k)) dbg (q_expression q) w) w) /\
  (~ Forall (accepted sv E dbg (k_read k) d) (given q) -> exists m b, post_eval sv E dbg number otherwise say (utf8 (a ++ t ++ rest)) query w = (Ok (200%N, b), w) /\
     bytes_of (JObject [(lit "result", JNull); (lit "error", JString (say m))]) b).
Proof.
  intros D W sv E dbg number otherwise say a j t rest q query ps ty V k A T R U Q P Um Ty S.
  destruct (PropEndToEnd.C103_requests sv E dbg number otherwise say a j t rest q query ps A T R U Q P Um) as (q' & Sq & X).
  pose proof (PropEndToEnd.same_given q q' Sq) as G. pose proof (PropEndToEnd.nodup_given q q' Sq) as Nd. pose proof Sq as (Se & St & _).
  assert (Ty' : asked q' = ty) by (unfold asked in *; rewrite <- St; exact Ty).
  destruct (PropServer.C37_values D W sv E dbg q' ty V k Ty' S Nd) as (d & Hd & Hno & H). exists d. split; [exact Hd|]. split; [exact Hno|].
  assert (Acc : forall P : str * ModelServer.variable -> Prop, Forall P (given q) <-> Forall P (given q')) by (intros P0; rewrite !Forall_forall; split; intros F p I; apply F, G; exact I).
  intros w. specialize (X w). destruct (H w) as [H1 H2]. unfold PropEndToEnd.post in X. split.
  - intros F. destruct (H1 (proj1 (Acc _) F)) as (d' & Hd' & Ev). exists d'. split; [exact (same_variables D W sv E V (k_read k) d _ _ d' G Hd')|]. rewrite Se. rewrite Ev in X. unfold answered.
    destruct (eval _ _ _ _ _ _) as [[v|e|] w']; cbn [answer_to] in X; exact X.
  - intros F. destruct H2 as (m & Ev). { intros F'. apply F, Acc. exact F'. } rewrite Ev in X. destruct X as (b & B). exists m, b. exact B.
Qed.
Print Assumptions C106_every_type.

(** Decimals (the type of requests that name none): the answer shows a decimal of the value that the calculator of rationals gives, or is
    the error that it gives, or there is none where the evaluation panics. *)
Theorem C106_decimals : forall D W (sv : service D W) value E dbg number otherwise say a j t rest q query ps, SpecDecimal.exact_decimals (s_dlib sv) value -> (64 <= s_fuel sv)%nat ->
  white a -> SpecJson.value_text j t -> ends j rest -> unicode_string (a ++ t ++ rest) -> request_of number j q -> query_is query ps -> (forall m, unicode_string (say m)) -> q_type q = None \/ q_type q = Some NDecimal ->
  exists d, decimals sv E dbg (server_settings NDecimal) = Ok d /\ (Forall (accepted sv E dbg (s_read_decimal sv) d) (given q) -> forall w,
  exists d', with_variables sv E (s_read_decimal sv) d (given q) d' /\
  forall vars e r, (forall x, vars x = option_map value (get_variable (to_ctx E d') x)) -> wf (to_ctx E d') e -> text_of (to_ctx E d') (s_read_decimal sv) e (q_expression q) -> SpecDecCalc.decimal value vars e = Some r ->
  exists z, SpecDecCalc.agrees value z r /\ answered sv E dbg number otherwise say (utf8 (a ++ t ++ rest)) query ps (s_show_decimal sv) (z, w) w).
Proof.
  intros D W sv value E dbg number otherwise say a j t rest q query ps EX Hf A T R U Q P Um Hq. assert (Ha : asked q = NDecimal) by (unfold asked; destruct Hq as [-> | ->]; reflexivity).
  destruct (C106_every_type D W sv E dbg number otherwise say a j t rest q query ps NDecimal D _ A T R U Q P Um Ha (Serves_decimal sv E dbg)) as (d & Hd & _ & H). cbn [k_context k_read k_show k_parse k_rules decimal_kind] in *.
  exists d. split; [exact Hd|]. intros F w. destruct (proj1 (H w) F) as (d' & Hd' & An). exists d'. split; [exact Hd'|]. intros vars e r Hv Hwf Ht Hr.
  destruct (PropDecCalc.C96_text D W (s_dlib sv) value EX (s_fuel sv) (s_random sv) E dbg _ d d' Hf Hd (proj1 Hd') vars) with (parse := s_read_decimal sv) (e := e) (s := q_expression q) (r := r) (w := w) as (z & Ez & Z); try assumption.
  - intros x. rewrite Hv. destruct (get_variable (to_ctx E d') x); cbn [option_map]; [apply Qeq_refl|exact I].
  - exists z. split; [exact Z|]. change (split_into_tokens default_splitter) with PropLex.dsplitter in An. rewrite Ez in An. exact An.
Qed.
Print Assumptions C106_decimals.

(** Doubles: the answer is a result that the calculator of doubles allows. *)
Theorem C106_floats : forall D W (sv : service D W) E dbg number otherwise say a j t rest q query ps,
  white a -> SpecJson.value_text j t -> ends j rest -> unicode_string (a ++ t ++ rest) -> request_of number j q -> query_is query ps -> (forall m, unicode_string (say m)) -> q_type q = Some NFloat ->
  exists d, checked_floats sv E dbg (server_settings NFloat) = Ok d /\ (Forall (accepted sv E dbg (s_read_f64 sv) d) (given q) -> forall w,
  exists d', with_variables sv E (s_read_f64 sv) d (given q) d' /\
  forall e, SpecDoubleCalc.known true (s_docs sv) e -> wf (to_ctx E d') e -> text_of (to_ctx E d') (s_read_f64 sv) e (q_expression q) ->
  exists r, SpecDoubleCalc.worth (s_libm sv) (get_variable (to_ctx E d')) (s_float_fuel sv) true (s_docs sv) e r /\ answered sv E dbg number otherwise say (utf8 (a ++ t ++ rest)) query ps (s_show_f64 sv) (r, w) w).
Proof.
  intros D W sv E dbg number otherwise say a j t rest q query ps A T R U Q P Um Hq. assert (Ha : asked q = NFloat) by (unfold asked; rewrite Hq; reflexivity).
  destruct (C106_every_type D W sv E dbg number otherwise say a j t rest q query ps NFloat f64 _ A T R U Q P Um Ha (Serves_float sv E dbg)) as (d & Hd & _ & H). cbn [k_context k_read k_show k_parse k_rules float_kind] in *.
  exists d. split; [exact Hd|]. intros F w. destruct (proj1 (H w) F) as (d' & Hd' & An). exists d'. split; [exact Hd'|]. intros e K Hwf Ht.
  destruct (PropDoubleCalc.C105_text W (s_float_fuel sv) (s_libm sv) (s_random sv) true (s_docs sv) E dbg _ d d' Hd (proj1 Hd') (s_read_f64 sv) e (q_expression q) w K Hwf Ht) as (r & R1 & Ez).
  exists r. split; [exact R1|]. change (split_into_tokens default_splitter) with PropLex.dsplitter in An. rewrite Ez in An. exact An.
Qed.
Print Assumptions C106_floats.

(** The requests of C96 and of C105, and one whose variable has no value, as bytes. *)
Definition by_service : service ProofDecRef.dec unit :=
  Service ProofDecRef.dec unit ProofDecRef.ref_lib 200 PropOps.exact_libm PropComplex.no_clib no_random false 200 PropSource.parse_dec PropSource.parse_double (fun _ => None)
    (fun x => if Qeq_bool (ProofDecRef.val x) (- 137 # 10) then lit "-13.7" else []) (fun x => if PropDoubleCalc.same_f x (f_of 3 (-1)) then lit "1.5" else []) (fun _ => []).
Definition by_post (body : string) : res (N * list N) := fst (post_eval by_service std_env true (fun _ => None) (fun _ => NotUtf8) (fun m => lit "no") (utf8 (lit body)) [] tt).
Example C106_case :
  by_post "{""expression"":""2(x + 0.5)^3 mod 1.7 - sum(1, AVG(1, 2), x) * round(Pi)"",""variables"":{""x"":""2.5""}}" = Ok (200%N, utf8 (lit "{""result"":""-13.7"",""error"":null}")) /\
  by_post "{""type"":""float"",""expression"":""(x + 0.25) mod 2 * 2"",""variables"":{""x"":""2.5""}}" = Ok (200%N, utf8 (lit "{""result"":""1.5"",""error"":null}")) /\
  by_post "{""type"":""float"",""expression"":""1 / (x - x)"",""variables"":{""x"":""2.5""}}" = Ok (200%N, utf8 (lit "{""result"":null,""error"":""no""}")) /\
  by_post "{""type"":""float"",""expression"":""1"",""variables"":{""x"":""y""}}" = Ok (200%N, utf8 (lit "{""result"":null,""error"":""no""}")).
Proof. repeat match goal with |- _ /\ _ => split end; vm_compute; reflexivity. Qed.
