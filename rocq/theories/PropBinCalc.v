(** * C104: the binary context is the calculator of SpecBinCalc, for the library, the server and its bytes

    Vocabulary: SpecBinCalc (the calculator, its trees and its words), SpecLex2 (the words of a text), SpecServer, SpecJson. *)
From Coq Require Import List NArith ZArith Bool Arith Lia String.
From Verif Require Import ModelBase ModelContext ModelEvaluator ModelText ModelDefault ModelFloat ModelNum ModelOps ModelSplit ModelTokenizer ModelParse ModelBinary ModelServer ModelStd
  SpecExpr SpecText SpecOps SpecLex SpecLex2 SpecParse SpecTokenizer SpecRepl SpecServer SpecCalculator ProofText ProofDefault ProofBuild ProofYard ProofRpn ProofTokens2 ProofWf ProofSplit ProofLex ProofLex3 ProofTok ProofExprText ProofTok2 ProofParse ProofBinary SpecBinCalc ProofBinCalc.
From Verif Require Import ModelJson SpecJson.
From Verif Require PropServer PropCalculator PropBinary PropEndToEnd.
Import ListNotations.
Local Open Scope string_scope.
Local Open Scope list_scope.
Local Open Scope Z_scope.

(** The text of an expression evaluates to what the calculator computes: the same number (one of 128 bits), the same error, or the same
    panic. *)
Theorem C104_text : forall W dbg E cf d d', binary_context (W := W) dbg E cf = Ok d -> same_but_variables d d' ->
  let vars := get_variable (to_ctx E d') in (forall x z, vars x = Some z -> fits i128 z) ->
  forall e s ws w, bit_calculator e -> bit_grouped e -> Forall2 (bit_word vars) (print e) ws -> reads_as true false s ws -> (complex_number cf = true -> ~ In (lit "i") ws) ->
  eval (to_ctx E d') parse_binary (split_into_tokens binary_number_splitter) dbg s w = (bit_calc dbg vars e, w) /\ forall z, bit_calc dbg vars e = Ok z -> fits i128 z.
Proof.
  intros W dbg E cf d d' H Hs vars Hv e s ws w Hc Hg Hw Hr Hi.
  destruct (bit_calc_is dbg E cf d d' H Hs Hv e w Hc (bit_words_fit E d' e ws Hw)) as [C F]. split; [|exact F].
  pose proof (bit_wf dbg E cf d d' H Hs e Hc Hg) as Wf.
  assert (Sp : Forall2 (spells (to_ctx E d') parse_binary) (print e) ws).
  { pose proof (bit_tokens e Hc) as T. revert T. clear - H Hs Hw. induction Hw as [|tk wd tks wds A _ IH]; intros T; [constructor|]. inversion T; subst. constructor; [apply (bit_spells dbg E cf d d' H Hs); assumption|]. apply IH. assumption. }
  pose proof (reads_split true false s ws Hr) as Hsp. change (the_rules true false) with binary_number_splitter in Hsp.
  unfold eval, bind, lift.
  assert (NB : ~ blank s). { intros B. assert (ws = []) by (rewrite <- Hsp; apply (reads_split true false); apply PropBinary.blank_reads; exact B). subst ws. destruct (print e) eqn:Q; [exact (ProofExprText.print_nonempty e Q)|inversion Sp; congruence]. }
  rewrite tokenize_not_blank by exact NB. change (split_into_tokens binary_number_splitter s) with (split_ true false s). rewrite Hsp.
  rewrite (loop_complete (to_ctx E d') parse_binary None ws (print e)).
  - rewrite eval_tokens_print by exact Wf. exact C.
  - apply text_stands; try assumption; [apply (bit_readable dbg E cf d d' H Hs); exact Hc|]. unfold no_i. destruct (bit_lookups dbg E cf d d' H Hs) as (_ & _ & _ & _ & ->). exact Hi.
Qed.
Print Assumptions C104_text.

(** A request for binary numbers whose variables are accepted (they are read as decimal numerals) is answered with the bits of what the
    calculator computes. *)
Theorem C104_server : forall D W (sv : service D W) E dbg q vars, q_type q = Some NBinary -> NoDup (map fst (given q)) ->
  (forall x z, vars x = Some z <-> PropCalculator.request_variable D W sv q x z) ->
  exists d, binaries E dbg (server_settings NBinary) = Ok d /\ (Forall (accepted sv E dbg (parse_int i128) d) (given q) ->
  forall e ws w, bit_calculator e -> bit_grouped e -> Forall2 (bit_word vars) (print e) ws -> reads_as true false (q_expression q) ws ->
  eval_expression sv E dbg q w = answer_to show_binary (bit_calc dbg vars e, w)).
Proof.
  intros D W sv E dbg q vars Hq Nd Hvars. assert (Ha : asked q = NBinary) by (unfold asked; rewrite Hq; reflexivity).
  destruct (PropServer.C37_values D W sv E dbg q NBinary Z _ Ha (Serves_binary sv E dbg) Nd) as (d & Hd & Hno & X).
  exists d. split; [exact Hd|]. intros Ok_ e ws w Hc Hg Hw Hl. destruct (X w) as [Y _]. destruct (Y Ok_) as (d' & (Hs & Hout & Hin) & ->). clear X Y.
  cbn [k_read k_show k_parse k_rules binary_kind] in *.
  assert (V : forall x, get_variable (to_ctx E d') x = vars x).
  { intros x. destruct (in_dec (list_eq_dec N.eq_dec) x (map fst (given q))) as [I|I].
    - apply in_map_iff in I. destruct I as ((x' & v) & <- & I). cbn [fst]. rewrite (Hin _ _ I).
      destruct (parse_int i128 (SpecServer.value_text sv v)) as [z|] eqn:P.
      + symmetry. apply Hvars. exists v. split; [exact I|]. apply (parse_int_spec i128) in P; [|reflexivity]. exact P.
      + exfalso. rewrite Forall_forall in Ok_. destruct (Ok_ _ I) as [_ K]. exact (K P).
    - rewrite (Hout _ I), Hno. destruct (vars x) as [z|] eqn:K; [|reflexivity]. exfalso. apply Hvars in K. destruct K as (v & Iv & _).
      apply I. apply in_map_iff. exists (x, v). auto. }
  f_equal.
  assert (F : forall x z, get_variable (to_ctx E d') x = Some z -> fits i128 z). { intros x z K. rewrite V in K. apply Hvars in K. destruct K as (v & _ & _ & K). exact K. }
  assert (Hw' : Forall2 (bit_word (get_variable (to_ctx E d'))) (print e) ws).
  { clear - Hw V. induction Hw as [|tk u tks us A _ IH]; constructor; [|exact IH]. destruct tk; cbn [bit_word] in *; rewrite ?V; exact A. }
  destruct (C104_text W dbg E _ d d' Hd Hs F e (q_expression q) ws w Hc Hg Hw' Hl ltac:(discriminate)) as [-> _].
  f_equal. apply bit_calc_vars. exact V.
Qed.
Print Assumptions C104_server.

(** The same from bytes to bytes: the result is written with the binary digits, without leading zeros, of the number modulo 2^128. *)
Theorem C104_bytes : forall D W (sv : service D W) E dbg number otherwise say a j t rest q vars query ps, white a -> SpecJson.value_text j t -> ends j rest -> unicode_string (a ++ t ++ rest) ->
  request_of number j q -> q_type q = Some NBinary -> (forall x z, vars x = Some z <-> PropCalculator.request_variable D W sv q x z) ->
  query_is query ps -> (forall m, unicode_string (say m)) ->
  exists d, binaries E dbg (server_settings NBinary) = Ok d /\ (Forall (accepted sv E dbg (parse_int i128) d) (given q) ->
  forall e ws w, bit_calculator e -> bit_grouped e -> Forall2 (bit_word vars) (print e) ws -> reads_as true false (q_expression q) ws ->
  let post := post_eval sv E dbg number otherwise say in
  match bit_calc dbg vars e with
  | Ok z => exists s b, (digits 2 s (z mod 2 ^ 128) /\ s <> [] /\ forall u, s = 48%N :: u -> u = []) /\ post (utf8 (a ++ t ++ rest)) query w = (Ok (200%N, b), w) /\
      (once ps "only_result" (lit "true") -> b = utf8 s) /\
      (~ once ps "only_result" (lit "true") -> bytes_of (JObject [(lit "result", JString s); (lit "error", JNull)]) b)
  | Err k => exists b, post (utf8 (a ++ t ++ rest)) query w = (Ok (200%N, b), w) /\
      bytes_of (JObject [(lit "result", JNull); (lit "error", JString (say (Failure k)))]) b
  | Panic => post (utf8 (a ++ t ++ rest)) query w = (Panic, w)
  end).
Proof.
  intros D W sv E dbg number otherwise say a j t rest q vars query ps A T R U Q Ty V P Um.
  destruct (PropEndToEnd.C103_requests sv E dbg number otherwise say a j t rest q query ps A T R U Q P Um) as (q' & S & X).
  pose proof (PropEndToEnd.same_given q q' S) as G. pose proof (PropEndToEnd.nodup_given q q' S) as Nd. destruct S as (Se & St & _).
  assert (V' : forall x z, vars x = Some z <-> PropCalculator.request_variable D W sv q' x z).
  { intros x z. rewrite V. unfold PropCalculator.request_variable. split; intros (v & I & H); exists v; (split; [apply G; exact I|exact H]). }
  destruct (C104_server D W sv E dbg q' vars ltac:(congruence) Nd V') as (d & Hd & H). exists d. split; [exact Hd|].
  intros Acc e ws w Hc Hg Hw Hl post.
  assert (Acc' : Forall (accepted sv E dbg (parse_int i128) d) (given q')) by (rewrite Forall_forall in Acc |- *; intros p I; apply Acc; apply G; exact I).
  rewrite Se in Hl. specialize (H Acc' e ws w Hc Hg Hw Hl). specialize (X w). rewrite H in X.
  destruct (bit_calc dbg vars e) as [z|k|]; cbn [answer_to] in X; [|exact X..].
  pose proof (PropBinary.C32_display z) as Sh. destruct X as (b & B).
  - apply PropEndToEnd.ascii_unicode. apply Forall_forall. intros ch I. destruct Sh as [Sh _]. pose proof (digits_char 2 _ _ ch ltac:(lia) Sh I). lia.
  - exists (show_binary z), b. split; [exact Sh|exact B].
Qed.
Print Assumptions C104_bytes.

(** The hypotheses are met: [x << b101 == ~y & 12 OR 1], which is [x << (5 = ((not y) and (12 or 1)))], with [x = 5] and [y = -6]. *)
Definition bit_vars (x : str) : option Z := if str_eqb x (lit "x") then Some 5 else if str_eqb x (lit "y") then Some (-6) else None.
Definition bit_tree : expr Z :=
  EBin (lit "<<") (EVar (lit "x")) (EBin (lit "==") (ENum 5) (EBin (lit "&") (EPre (lit "~") (EVar (lit "y"))) (EBin (lit "OR") (ENum 12) (ENum 1)))).
Definition bit_text : string := "x << b101 == ~y & 12 OR 1".
Definition bit_words : list str := map lit ["x"; "<<"; "b101"; "=="; "~"; "y"; "&"; "12"; "OR"; "1"]%string.
Definition bit_request : request := PropServer.ask bit_text NBinary [("x", VString (lit "5")); ("y", VString (lit "-6"))]%string.
Ltac a_name := match goal with |- one_of ?l _ => let l' := eval unfold operator_names in l in change (one_of l') with (one_of l'); let rec go l := match l with ?n :: ?l' => first [exists n; split; [cbn [In operator_names]; tauto|reflexivity]|go l'] end in go l' end.
Example C104_case : bit_calculator bit_tree /\ bit_grouped bit_tree /\ Forall2 (bit_word bit_vars) (print bit_tree) bit_words /\ reads_as true false (lit bit_text) bit_words /\
  bit_calc true bit_vars bit_tree = Ok 10 /\
  NoDup (map fst (given bit_request)) /\ (forall x z, bit_vars x = Some z <-> PropCalculator.request_variable _ unit PropCalculator.case_service bit_request x z) /\
  (exists d, binaries (W := unit) std_env true (server_settings NBinary) = Ok d /\ Forall (accepted PropCalculator.case_service std_env true (parse_int i128) d) (given bit_request)) /\
  fst (eval_expression PropCalculator.case_service std_env true bit_request tt) = Ok (inl (lit "1010")) /\
  fst (post_eval PropCalculator.case_service std_env true (fun _ => None) (fun _ => NotUtf8) (fun _ => []) (utf8 (lit "{""type"":""binary"",""expression"":""~b101""}")) [] tt) =
    Ok (200%N, utf8 (lit "{""result"":""11111111111111111111111111111111111111111111111111111111111111111111111111111111111111111111111111111111111111111111111111111010"",""error"":null}")).
Proof.
  split. { cbn [bit_calculator bit_tree complement_first]. repeat split; a_name. }
  split. { cbn [bit_grouped bit_tree left_ops right_ops In app is_atom ends_in_prefix]. unfold bit_first. repeat match goal with |- _ /\ _ => split end; try exact I; try reflexivity; try (left; reflexivity);
    intros o' X; cbn in X; repeat (destruct X as [<-|X]; [vm_compute; first [discriminate|intros Y; apply Y; reflexivity]|]); destruct X. }
  split.
  { assert (N10 : forall s v, parse_int i128 s = Some v -> match s with c :: _ => negb (N.eqb c 43 || N.eqb c 45) | [] => false end = true -> fits i128 v /\ ((digits 10 s v /\ s <> []) \/ exists t, s = 98%N :: t /\ digits 2 t v /\ t <> [])).
    { intros s v H Hs. apply parse_int_spec in H; [|reflexivity]. destruct H as [H F]. split; [exact F|left]. inversion H; subst; [auto|discriminate|discriminate]. }
    assert (I : forall s, match s with c :: u => is_ident_start c && forallb is_ident_char u | [] => false end = true -> ident_word s).
    { intros s H. destruct s as [|c u]; [discriminate|]. apply andb_true_iff in H. destruct H as [H1 H2]. exists c, u. split; [reflexivity|]. rewrite forallb_forall in H2.
      split; [apply letter_spec; exact H1|]. apply Forall_forall. intros x Hx. apply ident_spec. auto. }
    assert (N2 : forall t v, from_str_radix i128 2 t = Some v -> match t with c :: _ => negb (N.eqb c 43 || N.eqb c 45) | [] => false end = true -> fits i128 v /\ ((digits 10 (98%N :: t) v /\ 98%N :: t <> []) \/ exists u, 98%N :: t = 98%N :: u /\ digits 2 u v /\ u <> [])).
    { intros t v H Hs. apply radix_spec in H; [|reflexivity|lia]. destruct H as [H F]. split; [exact F|right]. exists t. split; [reflexivity|]. inversion H; subst; [auto|discriminate|discriminate]. }
    unfold bit_words. cbn [print bit_tree map app].
    repeat (apply Forall2_cons; [first [apply N10; reflexivity|apply (N2 (lit "101")); reflexivity|split; reflexivity|split; [reflexivity|]; split; [apply I; reflexivity|]; split; [intros t v X; discriminate X|discriminate]]|]). apply Forall2_nil. }
  split; [assert (X : split_ true false (lit bit_text) = bit_words) by (vm_compute; reflexivity); rewrite <- X; apply split_reads|].
  split; [vm_compute; reflexivity|].
  assert (Nx : forall s v, numeral 10 true s v /\ fits i128 v <-> parse_int i128 s = Some v) by (intros s v; symmetry; apply (parse_int_spec i128); reflexivity).
  split. { cbn. constructor; [|constructor; [intros []|constructor]]. intros [X|[]]. discriminate. }
  split.
  { intros x z. unfold bit_vars, PropCalculator.request_variable. cbn [given bit_request PropServer.ask q_variables map fst snd]. split.
    - destruct (str_eqb x (lit "x")) eqn:A; [apply str_eqb_eq in A; subst x|destruct (str_eqb x (lit "y")) eqn:B; [apply str_eqb_eq in B; subst x|discriminate]]; intros X; injection X as <-.
      + exists (VString (lit "5")). split; [left; reflexivity|]. apply (Nx (lit "5")). reflexivity.
      + exists (VString (lit "-6")). split; [right; left; reflexivity|]. apply (Nx (lit "-6")). reflexivity.
    - intros (v & [A|[A|[]]] & B); injection A as <- <-; cbn [SpecServer.value_text] in B; apply Nx in B; vm_compute in B; injection B as <-; reflexivity. }
  split; [|split; vm_compute; reflexivity].
  assert (B : match binaries (W := unit) std_env true (server_settings NBinary) with
    | Ok d => forallb (fun p => match check_token_name (fst p) with Ok _ => true | _ => false end && forallb (fun k => negb (eq_ignore_case std_env (fst k) (fst p))) (d_consts d) &&
        match parse_int i128 (SpecServer.value_text PropCalculator.case_service (snd p)) with Some _ => true | None => false end) (given bit_request)
    | _ => false end = true) by (vm_compute; reflexivity).
  destruct (binaries (W := unit) std_env true (server_settings NBinary)) as [d| |]; [|discriminate B..].
  exists d. split; [reflexivity|]. apply Forall_forall. intros p Hp. rewrite forallb_forall in B. specialize (B p Hp). apply andb_true_iff in B. destruct B as [B B3]. apply andb_true_iff in B. destruct B as [B1 B2].
  split; [split|].
  - intros _. destruct (check_token_name (fst p)) as [[]| |]; [reflexivity|discriminate..].
  - intros k v X. rewrite forallb_forall in B2. specialize (B2 _ X). apply negb_true_iff in B2. exact B2.
  - destruct (parse_int i128 (SpecServer.value_text PropCalculator.case_service (snd p))); discriminate.
Qed.
