(** * C87, C88: the integer contexts are the calculator of SpecCalculator *)
From Coq Require Import List NArith ZArith Bool Arith Lia String.
From Verif Require Import ModelBase ModelContext ModelEvaluator ModelText ModelDefault ModelFloat ModelNum ModelOps ModelSplit ModelTokenizer ModelParse ModelServer ModelStd
  SpecExpr SpecText SpecOps SpecLex SpecParse SpecTokenizer SpecRepl SpecServer ProofText ProofCtx ProofOps ProofParse ProofServer ProofSplit PropLex SpecCalculator ProofCalculator.
From Verif Require Import ModelDecimal ProofDecRef.
From Verif Require PropServer PropOps PropComplex.
Import ListNotations.
Local Open Scope Z_scope.

(** [a ^ b] is the power of doubles that the platform computes, truncated (C30 says when that is the power of integers). *)
Definition double_power (L : libm) (t : ity) (a b : Z) : res Z :=
  match f_trunc_Z (powf L (f_of_Z a) (f_of_Z b)) with Some z => put t z | None => Err Overflow end.
Lemma double_power_is : forall W t dbg L (rnd : W -> f64 * W) docs E cf d, 2 <= bits t -> checked_context (int_num t dbg) L rnd docs E dbg cf = Ok d ->
  forall x y w, apply_binary (to_ctx E d) (lit "^") x y w = (double_power L t x y, w).
Proof.
  intros W t dbg L rnd docs E cf d Hb H x y w. rewrite (c_pow_is t dbg L rnd docs E cf d H). unfold double_power.
  destruct (f_trunc_Z _) as [z|]; [|reflexivity]. rewrite (put_is t Hb). reflexivity.
Qed.

(** The text of an expression evaluates to what the calculator computes: the same number, the same error, or the same panic.
    [rest] is what functions [others] than sum, product, avg, max, min and abs do. *)
Theorem C87_text : forall W t dbg L (rnd : W -> f64 * W) docs E cf d d', 2 <= bits t ->
  checked_context (int_num t dbg) L rnd docs E dbg cf = Ok d -> same_but_variables d d' ->
  let vars := get_variable (to_ctx E d') in (forall x z, vars x = Some z -> fits t z) ->
  forall rest (others : str -> Prop),
  (forall f, others f -> get_constant (to_ctx E d) f = None /\ get_function (to_ctx E d) f <> None /\ forall zs w, apply_function (to_ctx E d) f zs w = (rest f zs, w)) ->
  forall e s ws w, calculator others e -> grouped (implicit_mul cf) (custom_function_call cf) e ->
  Forall2 (calc_word t vars) (print e) ws -> lexes s ws -> (complex_number cf = true -> ~ In (lit "i") ws) ->
  eval (to_ctx E d') (parse_int t) dsplitter dbg s w = (calc t dbg vars (double_power L t) rest e, w).
Proof.
  intros W t dbg L rnd docs E cf d d' Hb H Hs vars Hv rest others Ho e s ws w Hc Hg Hw Hl Hi.
  pose proof (double_power_is W t dbg L rnd docs E cf d Hb H) as Hp.
  rewrite (C16_eval_text _ _ _ (parse_int t) dbg e s w).
  - exact (proj1 (calc_is t dbg L rnd docs E cf d d' H Hs Hb Hv _ rest others Hp Ho e w Hc (words_fit t E d' e ws Hw))).
  - exact (grouped_wf t dbg L rnd docs E cf d d' H Hs _ rest others Hp Ho e Hc Hg).
  - exact (calc_text t dbg L rnd docs E cf d d' H Hs Hb Hv _ rest others Hp Ho e s ws Hc Hw Hl Hi).
Qed.
Print Assumptions C87_text.

(** ** C88: the server *)

(** A request for integers whose variables are accepted is answered with what the calculator computes for its expression, the variables
    worth the integers their texts are numerals of. *)
Definition request_variable (D W : Type) (sv : service D W) (q : request) (x : str) (z : Z) : Prop :=
  exists v, In (x, v) (given q) /\ numeral 10 true (value_text sv v) z /\ fits i128 z.
Theorem C88_server : forall D W (sv : service D W) E dbg q vars, q_type q = Some NInteger -> NoDup (map fst (given q)) ->
  (forall x z, vars x = Some z <-> request_variable D W sv q x z) ->
  exists d, integers sv E dbg (server_settings NInteger) = Ok d /\ (Forall (accepted sv E dbg (parse_int i128) d) (given q) ->
  forall e ws w, calculator (fun _ => False) e -> grouped true false e ->
  Forall2 (calc_word i128 vars) (print e) ws -> lexes (q_expression q) ws ->
  eval_expression sv E dbg q w = answer_to show_int (calc i128 dbg vars (double_power (s_libm sv) i128) (fun _ _ => Panic) e, w)).
Proof.
  intros D W sv E dbg q vars Hq Nd Hvars. assert (Ha : asked q = NInteger) by (unfold asked; rewrite Hq; reflexivity).
  destruct (PropServer.C37_values D W sv E dbg q NInteger Z _ Ha (Serves_integer sv E dbg) Nd) as (d & Hd & Hno & X).
  exists d. split; [exact Hd|]. intros Ok_ e ws w Hc Hg Hw Hl. destruct (X w) as [Y _]. destruct (Y Ok_) as (d' & (Hs & Hout & Hin) & ->). clear X Y.
  cbn [k_read k_show k_parse k_rules integer_kind] in *.
  assert (V : forall x, get_variable (to_ctx E d') x = vars x).
  { intros x. destruct (in_dec (list_eq_dec N.eq_dec) x (map fst (given q))) as [I|I].
    - apply in_map_iff in I. destruct I as ((x' & v) & <- & I). cbn [fst]. rewrite (Hin _ _ I).
      destruct (parse_int i128 (value_text sv v)) as [z|] eqn:P.
      + symmetry. apply Hvars. exists v. split; [exact I|]. apply (parse_int_spec i128) in P; [|reflexivity]. exact P.
      + exfalso. rewrite Forall_forall in Ok_. destruct (Ok_ _ I) as [_ K]. exact (K P).
    - rewrite (Hout _ I), Hno. destruct (vars x) as [z|] eqn:K; [|reflexivity]. exfalso. apply Hvars in K. destruct K as (v & Iv & _).
      apply I. apply in_map_iff. exists (x, v). auto. }
  f_equal. change (split_into_tokens default_splitter) with dsplitter.
  assert (F : forall x z, get_variable (to_ctx E d') x = Some z -> fits i128 z). { intros x z K. rewrite V in K. apply Hvars in K. destruct K as (v & _ & _ & K). exact K. }
  assert (Hw' : Forall2 (calc_word i128 (get_variable (to_ctx E d'))) (print e) ws).
  { clear - Hw V. induction Hw as [|tk u tks us A _ IH]; constructor; [|exact IH]. destruct tk; cbn [calc_word] in *; rewrite ?V; exact A. }
  rewrite (C87_text W i128 dbg (s_libm sv) (s_random sv) (s_docs sv) E _ d d' ltac:(discriminate) Hd Hs F (fun _ _ => Panic) (fun _ => False) ltac:(intros f []) e _ ws w Hc Hg Hw' Hl ltac:(discriminate)).
  f_equal. apply calc_vars. exact V.
Qed.
Print Assumptions C88_server.

(** The hypotheses are met: [2Max(x, Pi)! - sum(4, -y) mod 5^2] with [x = 4] and [y = -3]. *)
Definition case_vars (x : str) : option Z := if str_eqb x (lit "x") then Some 4 else if str_eqb x (lit "y") then Some (-3) else None.
Definition case_tree : expr Z :=
  EBin (lit "-") (EMul (ENum 2) (EPost (ECall (lit "Max") Parenthesis [EVar (lit "x"); EConst (lit "Pi")]) (lit "!")))
    (EBin (lit "mod") (ECall (lit "sum") Parenthesis [ENum 4; EPre (lit "-") (EVar (lit "y"))]) (EBin (lit "^") (ENum 5) (ENum 2))).
Definition case_text : string := "2Max(x, Pi)! - sum(4, -y) mod 5^2".
Definition case_words : list str := words ["2"; "Max"; "("; "x"; ","; "Pi"; ")"; "!"; "-"; "sum"; "("; "4"; ","; "-"; "y"; ")"; "mod"; "5"; "^"; "2"]%string.
Ltac one_name := match goal with |- one_of ?l _ => let rec go l := match l with ?n :: ?l' => first [exists n; split; [cbn [In]; tauto|reflexivity]|go l'] end in go l end.
Example C87_case : calculator (fun _ => False) case_tree /\ grouped true false case_tree /\ Forall2 (calc_word i128 case_vars) (print case_tree) case_words /\
  lexes (lit case_text) case_words /\
  calc i128 true case_vars (double_power PropOps.exact_libm i128) (fun _ _ => Panic) case_tree = Ok 41.
Proof.
  assert (D : forall s v, parse_int i128 s = Some v -> match s with c :: _ => negb (N.eqb c 43 || N.eqb c 45) | [] => false end = true -> digits 10 s v /\ s <> [] /\ fits i128 v).
  { intros s v H Hs. apply parse_int_spec in H; [|reflexivity]. destruct H as [H F]. inversion H; subst; [auto|discriminate|discriminate]. }
  assert (I : forall s, match s with c :: u => is_ident_start c && forallb is_ident_char u | [] => false end = true -> ident_word s).
  { intros s H. destruct s as [|c u]; [discriminate|]. apply andb_true_iff in H. destruct H as [H1 H2]. exists c, u. split; [reflexivity|]. rewrite forallb_forall in H2.
    split; [apply letter_spec; exact H1|]. apply Forall_forall. intros x Hx. apply ident_spec. auto. }
  split; [cbn [calculator case_tree]; repeat split; try one_name; left; one_name|].
  split.
  { cbn [grouped case_tree]. repeat split; try discriminate; try (left; reflexivity); try (cbn; tauto); try (intros o' X; cbn in X; repeat (destruct X as [<-|X]; [|]); try destruct X; first [left; reflexivity|right; split; [reflexivity|discriminate]|intros [Y|[Y Z]]; first [discriminate Y|apply Z; reflexivity]]). }
  split; [repeat (constructor; [first [apply D; reflexivity|split; [reflexivity|first [reflexivity|split; [apply I; reflexivity|first [reflexivity|discriminate]]]]]|]); constructor|].
  split; [apply C11_maximal_munch; reflexivity|]. vm_compute. reflexivity.
Qed.

(** The same as a request, with [x] and [y] as variables of the request: the hypotheses are met and the answer is [41]. *)
Definition case_service : service dec unit :=
  Service dec unit ref_lib 200 PropOps.exact_libm PropComplex.no_clib no_random false 200 (fun _ => None) (fun _ => None) (fun _ => None) (fun _ => []) (fun _ => lit "0.5") (fun _ => []).
Definition case_request : request := PropServer.ask case_text NInteger [("x", VString (lit "4")); ("y", VString (lit "-3"))]%string.
Example C88_case : NoDup (map fst (given case_request)) /\ (forall x z, case_vars x = Some z <-> request_variable dec unit case_service case_request x z) /\
  (exists d, integers case_service std_env true (server_settings NInteger) = Ok d /\ Forall (accepted case_service std_env true (parse_int i128) d) (given case_request)) /\
  fst (eval_expression case_service std_env true case_request tt) = Ok (inl (lit "41")).
Proof.
  assert (Nx : forall s v, numeral 10 true s v /\ fits i128 v <-> parse_int i128 s = Some v) by (intros s v; symmetry; apply (parse_int_spec i128); reflexivity).
  split. { cbn. constructor; [|constructor; [intros []|constructor]]. intros [X|[]]. discriminate. }
  split.
  { intros x z. unfold case_vars, request_variable. cbn [given case_request PropServer.ask q_variables map fst snd]. split.
    - destruct (str_eqb x (lit "x")) eqn:A; [apply str_eqb_eq in A; subst x|destruct (str_eqb x (lit "y")) eqn:B; [apply str_eqb_eq in B; subst x|discriminate]]; intros X; injection X as <-.
      + exists (VString (lit "4")). split; [left; reflexivity|]. apply (Nx (lit "4")). reflexivity.
      + exists (VString (lit "-3")). split; [right; left; reflexivity|]. apply (Nx (lit "-3")). reflexivity.
    - intros (v & [A|[A|[]]] & B); injection A as <- <-; cbn [value_text] in B; apply Nx in B; vm_compute in B; injection B as <-; reflexivity. }
  split; [|vm_compute; reflexivity].
  assert (B : match integers case_service std_env true (server_settings NInteger) with
    | Ok d => forallb (fun p => match check_token_name (fst p) with Ok _ => true | _ => false end && forallb (fun k => negb (eq_ignore_case std_env (fst k) (fst p))) (d_consts d) &&
        match parse_int i128 (value_text case_service (snd p)) with Some _ => true | None => false end) (given case_request)
    | _ => false end = true) by (vm_compute; reflexivity).
  destruct (integers case_service std_env true (server_settings NInteger)) as [d| |]; [|discriminate B..].
  exists d. split; [reflexivity|]. apply Forall_forall. intros p Hp. rewrite forallb_forall in B. specialize (B p Hp). apply andb_true_iff in B. destruct B as [B B3]. apply andb_true_iff in B. destruct B as [B1 B2].
  split; [split|].
  - intros _. destruct (check_token_name (fst p)) as [[]| |]; [reflexivity|discriminate..].
  - intros k v X. rewrite forallb_forall in B2. specialize (B2 _ X). apply negb_true_iff in B2. exact B2.
  - destruct (parse_int i128 (value_text case_service (snd p))); discriminate.
Qed.
