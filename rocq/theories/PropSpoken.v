(** * C109: what contexts, the server and the command line say of errors

    Vocabulary: SpecSpoken (names that are refused, what is said of them, the types with what they say), SpecMessage (what the evaluator says),
    SpecServer (a request's variables), SpecJson (JSON texts and bytes). *)
From Coq Require Import List NArith ZArith Bool Arith Lia String.
From Verif Require Import ModelBase ModelContext ModelEvaluator ModelText ModelSplit ModelTokenizer ModelDefault ModelFloat ModelNum ModelParse ModelMessage ModelRepl ModelSpoken ModelStd SpecText
  SpecExpr SpecLex SpecTokenizer SpecRepl SpecMessage ProofRepl ProofMessage ProofMessage3.
From Verif Require Import ModelServer SpecServer SpecSpoken ProofServer ProofSpoken ModelJson SpecJson.
From Verif Require PropJson PropServer PropEndToEnd PropBytes PropMessage ProofTok2.
Import ListNotations.
Local Open Scope string_scope.
Local Open Scope list_scope.

(** The texts change nothing: names are accepted and refused, requests and lines answered as the other theorems say. *)
Theorem C109_same : forall D V W (sv : service D W) (G : tongues D W) E dbg,
  (forall name (v : V) (d : dctx V W), let r := set_variable_m E dbg name v d in (heard (fst r), snd r) = set_variable E dbg name v d) /\
  (forall name (v : V) (d : dctx V W), let r := add_constant_m E dbg name v d in (heard (fst r), snd r) = add_constant E dbg name v d) /\
  (forall f name (d : dctx V W), let r := add_function_as_m E dbg f name d in (heard (fst r), snd r) = add_function_as E dbg f name d) /\
  (forall f name (d : dctx V W), let r := add_unary_function_as_m E dbg f name d in (heard (fst r), snd r) = add_unary_function_as E dbg f name d) /\
  (forall f name (d : dctx V W), let r := add_binary_function_as_m E dbg f name d in (heard (fst r), snd r) = add_binary_function_as E dbg f name d) /\
  (forall q w, unworded (eval_expression sv E dbg q w) (eval_expression_m sv G E dbg q w)) /\
  (forall t s w, let r := cli_eval_m sv G E dbg t s w in (heard (fst r), snd r) = cli_eval sv E dbg t s w) /\
  (forall parse b (g : tongue V W) s d w out, let r := loop_line_m E dbg parse b g s (d, w, out) in
     (fst r, (fst (fst (snd r)), snd (fst (snd r)), map unworded_line (snd (snd r)))) = loop_line E dbg parse b s (d, w, map unworded_line out)).
Proof.
  intros D V W sv G E dbg. split; [apply set_variable_same|]. split; [apply add_constant_same|].
  split; [|split; [|split; [|split; [apply expression_same|split]]]].
  - intros f name d. unfold add_function_as_m, add_function_as. rewrite <- (register_same E dbg _ AFunction (lit "A function")). destruct (register_m _ _ _ _ _ _ _ _); reflexivity.
  - intros f name d. unfold add_unary_function_as_m, add_unary_function_as. rewrite <- (register_same E dbg _ AOperator (lit "An unary function")). destruct (register_m _ _ _ _ _ _ _ _); reflexivity.
  - intros f name d. unfold add_binary_function_as_m, add_binary_function_as. rewrite <- (register_same E dbg _ AOperator (lit "A binary function")). destruct (register_m _ _ _ _ _ _ _ _); reflexivity.
  - intros [] s w; apply cli_same.
  - intros parse b g s d w out. apply line_same.
Qed.
Print Assumptions C109_same.

(** Names: each registration says exactly this, and then changes nothing. *)
Theorem C109_names : forall V W E dbg (d : dctx V W) name k m d',
  (forall v, set_variable_m E dbg name v d = (Errs k m, d') <-> d' = d /\
     refuses dbg "Variable" name (exists x y, In (x, y) (d_consts d) /\ eq_ignore_case E x name = true) "Invalid variable name, a constant named `" "` exists" k m) /\
  (forall v, add_constant_m E dbg name v d = (Errs k m, d') <-> d' = d /\
     refuses dbg "Constant" name (exists x y, In (x, y) (d_vars d) /\ eq_ignore_case E x name = true) "Invalid constant name, a variable named `" "` exists" k m) /\
  (forall f, add_function_as_m E dbg f name d = (Errs k m, d') <-> d' = d /\ refuses dbg "Function" name (get_function (to_ctx E d) name <> None) "A function named '" "' already exists" k m) /\
  (forall f, add_unary_function_as_m E dbg f name d = (Errs k m, d') <-> d' = d /\ refuses dbg "Operator" name (get_unary (to_ctx E d) name <> None) "An unary function named '" "' already exists" k m) /\
  (forall f, add_binary_function_as_m E dbg f name d = (Errs k m, d') <-> d' = d /\ refuses dbg "Operator" name (get_binary (to_ctx E d) name <> None) "A binary function named '" "' already exists" k m).
Proof.
  intros V W E dbg d name k m d'. split; [intros v; apply assigned|]. split; [intros v; apply added|]. destruct d as [vs cs fs us bs cf].
  split; [|split]; intros f; cbn [to_ctx get_function get_unary get_binary d_funs d_unary d_binary];
    [unfold add_function_as_m|unfold add_unary_function_as_m|unfold add_binary_function_as_m]; cbn [d_vars d_consts d_funs d_unary d_binary d_config];
    match goal with |- context [register_m E dbg ?kd (lit ?tk) ?al f name ?mm] =>
      pose proof (fun m' => registered E dbg _ kd tk al f name mm k m m' (insert_never E _ al f mm k m')) as R; destruct (register_m E dbg kd (lit tk) al f name mm) as [r m1] end;
    cbn [word String.append] in R;
    (split; [intros H; injection H as -> <-; destruct (proj1 (R m1) eq_refl) as [-> X]; split; [reflexivity|exact X]|intros [-> X]; specialize (proj2 (R _) (conj eq_refl X)) as Y; injection Y as -> ->; reflexivity]).
Qed.
Print Assumptions C109_names.

(** Requests: if all variables are accepted the answer is the value or the error that the evaluator tells (C108), otherwise what is said of the
    first variable that is not, in the order in which the hash map is iterated. *)
Theorem C109_requests : forall D W (sv : service D W) (G : tongues D W) E dbg q t V (k : kind V W) g, asked q = t -> spoken sv G E dbg t V k g -> NoDup (map fst (given q)) ->
  exists d, k_context k (server_settings t) = Ok d /\ forall w,
  (Forall (accepted sv E dbg (k_read k) d) (given q) -> exists d', with_variables sv E (k_read k) d (given q) d' /\
     eval_expression_m sv G E dbg q w = answer_of (k_show k) (eval_m (to_ctx E d') (t_voice g) dbg (k_parse k) (split_into_tokens (k_rules k)) (q_expression q) w)) /\
  (forall before p after, given q = before ++ p :: after -> Forall (accepted sv E dbg (k_read k) d) before -> ~ accepted sv E dbg (k_read k) d p ->
     exists m, eval_expression_m sv G E dbg q w = (Ok (inr m), w) /\ variable_refused sv E dbg (k_read k) g d p m).
Proof.
  intros D W sv G E dbg q t V k g Ht S Nd. pose proof (spoken_serves sv G E dbg t V k g S) as Sv. destruct (contexts_made sv E dbg t V k Sv (server_settings t)) as (d & Hd). exists d. split; [exact Hd|].
  intros w. rewrite (dispatch_m sv G E dbg t V k g S q w Ht), Hd. split.
  - intros F. apply typed_m_ok; assumption.
  - intros before p after Q F N. unfold eval_typed_m. fold (given q). rewrite Q. destruct (set_all_refused sv E dbg (k_read k) g before p after d F N) as (m & -> & R). exists m. split; [reflexivity|exact R].
Qed.
Print Assumptions C109_requests.

(** From bytes to bytes: the words of the errors are in the response. *)
Theorem C109_bytes : forall D W (sv : service D W) (G : tongues D W) E dbg number otherwise a j t rest q query ps ty V (k : kind V W) g,
  white a -> SpecJson.value_text j t -> ends j rest -> unicode_string (a ++ t ++ rest) -> request_of number j q -> query_is query ps -> asked q = ty -> spoken sv G E dbg ty V k g ->
  let post := post_eval_m sv G E dbg number otherwise (utf8 (a ++ t ++ rest)) query in
  exists d, k_context k (server_settings ty) = Ok d /\ forall w,
  (Forall (accepted sv E dbg (k_read k) d) (given q) -> exists d', with_variables sv E (k_read k) d (given q) d' /\
     match eval_m (to_ctx E d') (t_voice g) dbg (k_parse k) (split_into_tokens (k_rules k)) (q_expression q) w with
     | (Says v, w') => unicode_string (k_show k v) -> exists b, post w = (Ok (200%N, b), w') /\ (once ps "only_result" (lit "true") -> b = utf8 (k_show k v)) /\
         (~ once ps "only_result" (lit "true") -> bytes_of (JObject [(lit "result", JString (k_show k v)); (lit "error", JNull)]) b)
     | (Errs _ m, w') => unicode_string m -> exists b, post w = (Ok (200%N, b), w') /\ bytes_of (JObject [(lit "result", JNull); (lit "error", JString m)]) b
     | (Dies, w') => post w = (Panic, w')
     end) /\
  (~ Forall (accepted sv E dbg (k_read k) d) (given q) -> exists p m, In p (given q) /\ ~ accepted sv E dbg (k_read k) d p /\ variable_refused sv E dbg (k_read k) g d p m /\
     (unicode_string m -> exists b, post w = (Ok (200%N, b), w) /\ bytes_of (JObject [(lit "result", JNull); (lit "error", JString m)]) b)).
Proof.
  intros D W sv G E dbg number otherwise a j t rest q query ps ty V k g A T R U Q P Ty S post.
  destruct (PropJson.request_complete number j q Q) as (q' & Q' & Sq).
  assert (Rc : receive number otherwise (utf8 (a ++ t ++ rest)) = Received q') by (rewrite (PropJson.body_read number otherwise a j t rest A T R U), Q'; reflexivity).
  pose proof (PropEndToEnd.same_given q q' Sq) as Gv. pose proof (PropEndToEnd.nodup_given q q' Sq) as Nd. pose proof Sq as (Se & St & _).
  assert (Ty' : asked q' = ty) by (unfold asked in *; rewrite <- St; exact Ty).
  destruct (C109_requests D W sv G E dbg q' ty V k g Ty' S Nd) as (d & Hd & H). exists d. split; [exact Hd|].
  assert (Acc : forall P : str * ModelServer.variable -> Prop, Forall P (given q) <-> Forall P (given q')) by (intros P0; rewrite !Forall_forall; split; intros F p I; apply F, Gv; exact I).
  assert (Bad : forall w w' m, eval_expression_m sv G E dbg q' w = (Ok (inr m), w') -> unicode_string m -> exists b, post w = (Ok (200%N, b), w') /\ bytes_of (JObject [(lit "result", JNull); (lit "error", JString m)]) b).
  { intros w w' m X Um. unfold post, post_eval_m. rewrite Rc, X. eexists. split; [reflexivity|]. apply PropJson.C99_written. apply PropJson.writable_pair; [discriminate|intros s Y; injection Y as <-; exact Um|left; reflexivity|right; eexists; reflexivity]. }
  intros w. destruct (H w) as [H1 H2]. split.
  - intros F. destruct (H1 (proj1 (Acc _) F)) as (d' & Hd' & Ev). exists d'. split; [exact (PropBytes.same_variables D W sv E V (k_read k) d _ _ d' Gv Hd')|]. rewrite Se.
    destruct (eval_m _ _ _ _ _ _ _) as [[v|kk m|] w1]; cbn [answer_of] in Ev.
    + intros Us. pose proof (expression_same sv G E dbg q' w) as X. rewrite Ev in X. destruct (eval_expression sv E dbg q' w) as [[[s|x]|k2|] w2] eqn:Hx; cbn [unworded] in X; try contradiction. destruct X as [-> ->].
      destruct (PropJson.C100_only_result D W sv E dbg q' query ps _ w w1 P Hx) as [O1 O2]. cbn [endpoint] in O1, O2; unfold bind, ret in O1, O2; rewrite Hx in O1, O2.
      unfold post, post_eval_m. rewrite Rc, Ev. destruct (only_result query) as [[|]|]; cbn [respond evaluated_of] in O1, O2; eexists; (split; [reflexivity|]); split; intros K;
        try (exfalso; first [specialize (O1 K)|specialize (O2 K)]; discriminate); try reflexivity;
        (apply PropJson.C99_written; apply PropJson.writable_pair; [intros s' Y; injection Y as <-; exact Us|discriminate|right; eexists; reflexivity|left; reflexivity]).
    + apply Bad. exact Ev.
    + unfold post, post_eval_m. rewrite Rc, Ev. reflexivity.
  - intros F. assert (X : exists before p after, given q' = before ++ p :: after /\ Forall (accepted sv E dbg (k_read k) d) before /\ ~ accepted sv E dbg (k_read k) d p).
    { assert (F' : ~ Forall (accepted sv E dbg (k_read k) d) (given q')) by (intros F'; apply F, Acc; exact F'). clear - F'. induction (given q') as [|p l IH]; [exfalso; apply F'; constructor|].
      destruct (acceptable_dec sv E dbg (k_read k) d p) as [Ap|Ap]; [|exists [], p, l; auto]. destruct IH as (b & p0 & c & -> & Fb & Np); [intros Fl; apply F'; constructor; assumption|]. exists (p :: b), p0, c. repeat split; auto. }
    destruct X as (b & p & c & Qq & Fb & Np). destruct (H2 b p c Qq Fb Np) as (m & Ev & Rf). exists p, m. split; [apply Gv; rewrite Qq; apply in_or_app; right; left; reflexivity|]. split; [exact Np|]. split; [exact Rf|]. apply Bad. exact Ev.
Qed.
Print Assumptions C109_bytes.

(** The bytes are those of the other properties (C98 to C100, C103, C106) if their errors are put into words so: the server's own messages as they
    are, those of a request's evaluation as the evaluation tells them. *)
Theorem C109_wording : forall D W (sv : service D W) (G : tongues D W) E dbg number otherwise say body query w,
  ((forall q, receive number otherwise body <> Received q) -> forall s, say (Text s) = s) ->
  (forall q x m w', receive number otherwise body = Received q -> eval_expression sv E dbg q w = (Ok (inr x), w') -> eval_expression_m sv G E dbg q w = (Ok (inr m), w') -> say x = m) ->
  post_eval_m sv G E dbg number otherwise body query w = post_eval sv E dbg number otherwise say body query w.
Proof. intros D W sv G E dbg number otherwise say body query w H1 H2. exact (post_same sv G E dbg number otherwise say body query w H1 H2). Qed.
Print Assumptions C109_wording.
(** There is such a wording for every request. *)
Theorem C109_words_exist : forall D W (sv : service D W) (G : tongues D W) E dbg number otherwise body query w, exists say,
  ((forall q, receive number otherwise body <> Received q) -> forall s, say (Text s) = s) /\ post_eval_m sv G E dbg number otherwise body query w = post_eval sv E dbg number otherwise say body query w.
Proof.
  intros D W sv G E dbg number otherwise body query w.
  exists (match receive number otherwise body with Received q => fun _ => match fst (eval_expression_m sv G E dbg q w) with Ok (inr m) => m | _ => [] end | _ => fun x => match x with Text s => s | _ => [] end end).
  assert (H : (forall q, receive number otherwise body <> Received q) -> forall s, (match receive number otherwise body with Received q => fun _ => match fst (eval_expression_m sv G E dbg q w) with Ok (inr m) => m | _ => [] end | _ => fun x => match x with Text s => s | _ => [] end end) (Text s) = s).
  { intros N s. destruct (receive number otherwise body) as [|path|q]; [reflexivity..|]. exfalso. exact (N q eq_refl). }
  split; [exact H|]. apply C109_wording; [exact H|]. intros q x m w' R _ X. rewrite R, X. reflexivity.
Qed.
Print Assumptions C109_words_exist.

(** The command line: the value, or the error the evaluator tells. *)
Theorem C109_command_line : forall D W (sv : service D W) (G : tongues D W) E dbg t V (k : kind V W) g, said_by_program sv G E dbg t V k g ->
  exists d, k_context k (command_line_settings t) = Ok d /\ (forall x, get_variable (to_ctx E d) x = None) /\
  forall s w, cli_eval_m sv G E dbg t s w =
    match eval_m (to_ctx E d) (t_voice g) dbg (k_parse k) (split_into_tokens (k_rules k)) s w with (Says v, w') => (Says (k_show k v), w') | (Errs e m, w') => (Errs e m, w') | (Dies, w') => (Dies, w') end.
Proof.
  intros D W sv G E dbg t V k g S. assert (R : runs sv E dbg t V k) by (destruct S as [|t V k g Ht S]; [constructor|constructor; [exact Ht|exact (spoken_serves sv G E dbg t V k g S)]]).
  destruct (PropServer.C61_contexts D W sv E dbg t V k R) as (d & Hd & Hn & _). exists d. split; [exact Hd|]. split; [exact Hn|]. intros s w.
  assert (X : cli_eval_m sv G E dbg t s w = cli_typed_m E dbg (k_parse k) (k_show k) g (k_context k (command_line_settings t)) (k_rules k) s w) by (destruct S as [|t V k g Ht S]; [reflexivity|]; revert Ht; clear R d Hd Hn; destruct S; intros Ht; [reflexivity|exfalso; apply Ht; reflexivity|reflexivity|reflexivity|reflexivity]).
  rewrite X, Hd. reflexivity.
Qed.
Print Assumptions C109_command_line.

(** The prompt: a refused assignment says why; a line without [=] prints its value or the error the evaluator tells. *)
Theorem C109_prompt : forall V W E dbg (parse : str -> option V) b (g : tongue V W) (d : dctx V W) w out,
  (forall left right, ~ no_equals left \/ ~ no_equals right -> loop_line_m E dbg parse b g (left ++ lit "=" ++ right) (d, w, out) = (Ok FNone, (d, w, out ++ [Printed_error (lit "Invalid assignment")]))) /\
  (forall left right, no_equals left -> no_equals right -> parse (trim right) = None -> loop_line_m E dbg parse b g (left ++ lit "=" ++ right) (d, w, out) = (Ok FNone, (d, w, out ++ [Printed_error (t_unread g (trim right))]))) /\
  (forall left right v k m, no_equals left -> no_equals right -> parse (trim right) = Some v ->
     refuses dbg "Variable" (trim left) (exists x y, In (x, y) (d_consts d) /\ eq_ignore_case E x (trim left) = true) "Invalid variable name, a constant named `" "` exists" k m ->
     loop_line_m E dbg parse b g (left ++ lit "=" ++ right) (d, w, out) = (Ok FNone, (d, w, out ++ [Printed_error m]))) /\
  (forall s k m w', no_equals s -> trim s <> lit "exit" -> eval_m (to_ctx E d) (t_voice g) dbg parse (split_into_tokens (repl_splitter b)) (trim s) w = (Errs k m, w') ->
     loop_line_m E dbg parse b g s (d, w, out) = (Ok FNone, (d, w', out ++ [Printed_error m]))).
Proof.
  intros V W E dbg parse b g d w out. split; [|split; [|split]].
  - intros left right H. change (left ++ lit "=" ++ right) with (left ++ 61%N :: right).
    destruct H as [H|H]; destruct (in_dec N.eq_dec 61%N (if true then left else right)) as [Hl|Hl]; try contradiction.
    + apply in_split in Hl. destruct Hl as (l1 & l2 & ->). rewrite <- app_assoc. cbn [app]. exact (line_many_m E dbg parse g b l1 l2 right d w out).
    + apply in_split in Hl. destruct Hl as (l1 & l2 & ->). rewrite <- app_assoc. cbn [app]. exact (line_many_m E dbg parse g b l1 l2 right d w out).
    + destruct (in_dec N.eq_dec 61%N right) as [Hr|Hr]; [|contradiction]. apply in_split in Hr. destruct Hr as (r1 & r2 & ->). exact (line_many_m E dbg parse g b left r1 r2 d w out).
  - intros left right Hl Hr H. change (left ++ lit "=" ++ right) with (left ++ 61%N :: right). rewrite line_assign_m by assumption. rewrite H. reflexivity.
  - intros left right v k m Hl Hr H R. change (left ++ lit "=" ++ right) with (left ++ 61%N :: right). rewrite line_assign_m by assumption. rewrite H. rewrite (proj2 (assigned E dbg (trim left) v d k m d) (conj eq_refl R)). reflexivity.
  - intros s k m w' Hs Hx H. unfold loop_line_m. destruct (str_eqb (trim s) (lit "exit")) eqn:X; [apply str_eqb_eq in X; contradiction|].
    destruct (existsb (char_eqb 61%N) (trim s)) eqn:Y; [apply has_equals in Y; apply trim_in in Y; contradiction|]. rewrite H. reflexivity.
Qed.
Print Assumptions C109_prompt.

(** ** Cases *)
Definition plain_tongue : tongue Z unit := Tongue PropMessage.plain (fun s => lit "no number: " ++ s).
Definition silent {V} : tongue V unit := Tongue (Voice V unit [] (fun _ => []) (fun ch => [ch]) (fun _ _ _ => kind_text) (fun _ _ _ _ => kind_text) (fun _ _ _ => kind_text)) (fun _ => []).
Definition case_tongues : tongues ProofDecRef.dec unit := Tongues ProofDecRef.dec unit silent silent plain_tongue silent plain_tongue.
Definition case_post (body : string) : res (N * list N) := fst (post_eval_m PropServer.example_service case_tongues std_env true (fun _ => None) (fun _ => NotUtf8) (utf8 (lit body)) [] tt).
Definition case_line (s : string) : list str :=
  match loop_line_m std_env true (parse_int i64) false plain_tongue (lit s) (std plain_config, tt, []) with
  | (Ok FNone, (_, _, out)) => map (fun p => match p with Printed v => show_int v | Printed_error m => m end) out | _ => [lit "?"] end.
Example C109_case :
  case_post "{""type"":""integer"",""expression"":""1/(x-x)"",""variables"":{""x"":""2""}}" = Ok (200%N, utf8 (lit "{""result"":null,""error"":""Cannot divide by zero""}")) /\
  case_post "{""type"":""integer"",""expression"":""1 +"",""variables"":{}}" = Ok (200%N, utf8 (lit "{""result"":null,""error"":""Binary operations need 2 operands: Some(\""1\"") + None""}")) /\
  case_post "{""type"":""integer"",""expression"":""1"",""variables"":{""pi"":""2""}}" = Ok (200%N, utf8 (lit "{""result"":null,""error"":""Invalid variable name, a constant named `pi` exists""}")) /\
  case_post "{""type"":""integer"",""expression"":""1"",""variables"":{""a b"":""2""}}" = Ok (200%N, utf8 (lit "{""result"":null,""error"":""Variable names cannot contain whitespaces: `a b`""}")) /\
  case_post "{""type"":""integer"",""expression"":""1"",""variables"":{"""":""2""}}" = Ok (200%N, utf8 (lit "{""result"":null,""error"":""Variable name is empty""}")) /\
  case_post "{""type"":""integer"",""expression"":""1"",""variables"":{""x"":""z""}}" = Ok (200%N, utf8 (lit "{""result"":null,""error"":""no number: z""}")) /\
  case_post "{""type"":""integer"",""expression"":""1 + x"",""variables"":{""x"":""2""}}" = Ok (200%N, utf8 (lit "{""result"":""3"",""error"":null}")) /\
  case_post "{" = Ok (400%N, utf8 (lit "{""result"":null,""error"":""Invalid JSON""}")).
Proof. repeat match goal with |- _ /\ _ => split end; vm_compute; reflexivity. Qed.
Example C109_prompt_case :
  case_line "x = 2" = [] /\ case_line "2 + 3" = [lit "5"] /\ case_line "x = 1 = 2" = [lit "Invalid assignment"] /\ case_line "x = y" = [lit "no number: y"] /\
  case_line "a b = 2" = [lit "Variable names cannot contain whitespaces: `a b`"] /\ case_line "Pi = 3" = [lit "Invalid variable name, a constant named `Pi` exists"] /\
  case_line "1 / 0" = [lit "Cannot divide by zero"].
Proof. repeat match goal with |- _ /\ _ => split end; vm_compute; reflexivity. Qed.
(** The hypotheses of C109_names: a name of each sort. *)
Example C109_names_case :
  bad_name "Variable" (lit " ") Empty (lit "Variable name is empty") /\ bad_name "Function" (lit "a b") InvalidInput (lit "Function names cannot contain whitespaces: `a b`") /\
  bad_name "Operator" [43; 7]%N InvalidInput (lit "Operator names cannot contain control characters: `" ++ [43; 7]%N ++ lit "`") /\ good_name (lit "x") /\
  refuses true "Function" (lit "max") True "A function named '" "' already exists" Unknown_ (lit "A function named 'max' already exists").
Proof.
  split; [apply (empty_name "Variable"); repeat constructor|]. split; [apply (white_name "Function"); [intros B; inversion B as [|? ? C _]; discriminate C|exists 32%N; split; [right; left; reflexivity|reflexivity]]|].
  split; [apply (control_name "Operator"); [intros c [<-|[<-|[]]]; reflexivity|exists 7%N; split; [right; left; reflexivity|reflexivity]]|].
  assert (Gd : forall s, s <> [] -> forallb (fun c => negb (is_whitespace c) && negb (is_control c)) s = true -> good_name s).
  { intros s N H. split; [exact N|]. intros c I. rewrite forallb_forall in H. specialize (H c I). apply andb_prop in H. destruct H as [A B]. apply negb_true_iff in A, B. auto. }
  split; [apply Gd; [discriminate|reflexivity]|]. right. split; [intros _; apply Gd; [discriminate|reflexivity]|]. split; [exact I|]. split; reflexivity.
Qed.
