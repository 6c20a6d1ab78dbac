(** * What the settings of a configuration do *)
From Coq Require Import String List NArith ZArith Bool Arith Lia.
From Verif Require Import ModelBase ModelContext ModelText ModelDefault ModelTokenizer ModelEvaluator ModelNum ModelFloat ModelOps ModelStd
  ModelBinary ModelDecimal ModelComplex SpecExpr SpecTokens SpecGrammar SpecConfig ProofConfig.
Import ListNotations.
Open Scope string_scope.
Open Scope list_scope.
Open Scope nat_scope.

(** ** C94 *)

(** Whatever builder calls follow [Config::new()] or [Config::default()], in whatever order: each setting has the value it was last given,
    and is off if it was never given one. *)
Theorem C94_builders : forall start l, start = config_new \/ start = config_default ->
  let cf := fold_left (fun cf s => match s with
                                   | ImplicitMul b => config_with_implicit_mul cf b
                                   | ComplexNumber b => config_with_complex_number cf b
                                   | CustomCall b => config_with_custom_function_call cf b
                                   | Group g => config_with_grouping cf g
                                   end) l start in
  implicit_mul cf = last_given (map implicit_choice l) /\ complex_number cf = last_given (map complex_choice l) /\
  custom_function_call cf = last_given (map custom_choice l).
Proof. intros start l [-> | ->]; apply (settings_last _ l); reflexivity. Qed.
Print Assumptions C94_builders.

Example C94_case_builders :
  let cf := config_with_implicit_mul (config_with_grouping (config_with_custom_function_call (config_with_implicit_mul config_new true) true) Brace) false in
  (implicit_mul cf, complex_number cf, custom_function_call cf) = (false, false, true) /\
  last_given (map implicit_choice [ImplicitMul true; CustomCall true; Group Brace; ImplicitMul false]) = false /\
  last_given (map custom_choice [ImplicitMul true; CustomCall true; Group Brace; ImplicitMul false]) = true.
Proof. repeat split. Qed.

(** A context has the configuration it is built with (a complex context: with complex numbers turned on), and the configuration decides nothing
    else: a context built with another configuration is there too and has the same variables, constants, functions and operators. *)
Theorem C94_checked : forall V W (n : num V) L (random : W -> f64 * W) docs E dbg cf cf' d,
  checked_context n L random docs E dbg cf = Ok d ->
  cfg (to_ctx E d) = cf /\ exists d', checked_context n L random docs E dbg cf' = Ok d' /\ to_ctx E d' = configured cf' (to_ctx E d).
Proof.
  intros V W n L random docs E dbg cf cf' d. unfold checked_context. apply built_alike.
  repeat (apply Forall_cons || apply Forall_nil || cbn [app common_functions]); try apply ind_fun; try apply ind_un; try apply ind_bin;
  unfold K; destruct (n_from_f64 n _); first [apply ind_const | apply ind_panic].
Qed.
Print Assumptions C94_checked.

Theorem C94_unchecked : forall V W (n : num V) L (random : W -> f64 * W) E dbg cf cf' d,
  unchecked_context n L random E dbg cf = Ok d ->
  cfg (to_ctx E d) = cf /\ exists d', unchecked_context n L random E dbg cf' = Ok d' /\ to_ctx E d' = configured cf' (to_ctx E d).
Proof.
  intros V W n L random E dbg cf cf' d. unfold unchecked_context. apply built_alike.
  repeat (apply Forall_cons || apply Forall_nil || cbn [app common_functions]); try apply ind_fun; try apply ind_un; try apply ind_bin;
  unfold K; destruct (n_from_f64 n _); first [apply ind_const | apply ind_panic].
Qed.
Print Assumptions C94_unchecked.

Theorem C94_binary : forall W E dbg cf cf' (d : dctx Z W),
  binary_context dbg E cf = Ok d ->
  cfg (to_ctx E d) = cf /\ exists d', binary_context dbg E cf' = Ok d' /\ to_ctx E d' = configured cf' (to_ctx E d).
Proof.
  intros W E dbg cf cf' d. unfold binary_context. apply built_alike.
  repeat (apply Forall_cons || apply Forall_nil || cbn [app map]); try apply ind_un; try apply ind_bin.
Qed.
Print Assumptions C94_binary.

Theorem C94_decimal : forall D W (L : dlib D) fuel (random : W -> f64 * W) E dbg cf cf' d,
  decimal_context L fuel random E dbg cf = Ok d ->
  cfg (to_ctx E d) = cf /\ exists d', decimal_context L fuel random E dbg cf' = Ok d' /\ to_ctx E d' = configured cf' (to_ctx E d).
Proof.
  intros D W L fuel random E dbg cf cf' d. unfold decimal_context. apply built_alike. unfold dec_steps. cbv zeta.
  repeat (apply Forall_cons || apply Forall_nil); try apply ind_const; try apply ind_fun; try apply ind_un; try apply ind_bin.
Qed.
Print Assumptions C94_decimal.

Theorem C94_complex : forall W L (random : W -> f64 * W) E dbg cf cf' d,
  complex_context L random E dbg cf = Ok d ->
  cfg (to_ctx E d) = config_with_complex_number cf true /\
  exists d', complex_context L random E dbg cf' = Ok d' /\ to_ctx E d' = configured (config_with_complex_number cf' true) (to_ctx E d).
Proof.
  intros W L random E dbg cf cf' d. unfold complex_context. apply built_alike.
  repeat (apply Forall_cons || apply Forall_nil); try apply ind_fun; try apply ind_un; try apply ind_bin; apply ind_const.
Qed.
Print Assumptions C94_complex.

(** The kinds of grouping symbols chosen with [with_grouping] make no difference to any evaluation. *)
Theorem C94_grouping : forall V W (c : ctx V W) parse splitter dbg cf gs,
  let cf' := Config (implicit_mul cf) (complex_number cf) (custom_function_call cf) gs in
  (forall s, tokenize (configured cf c) parse splitter s = tokenize (configured cf' c) parse splitter s) /\
  (forall toks w, eval_tokens (configured cf c) dbg toks w = eval_tokens (configured cf' c) dbg toks w) /\
  (forall s w, eval (configured cf c) parse splitter dbg s w = eval (configured cf' c) parse splitter dbg s w).
Proof.
  intros V W c parse splitter dbg cf gs cf'.
  assert (T : forall s, tokenize (configured cf c) parse splitter s = tokenize (configured cf' c) parse splitter s) by (intros s; apply tokenize_cfg; left; reflexivity).
  assert (G : forall toks w, eval_tokens (configured cf c) dbg toks w = eval_tokens (configured cf' c) dbg toks w) by (intros toks w; apply eval_tokens_cfg; left; reflexivity).
  split; [exact T|split; [exact G|]]. intros s w. unfold eval. rewrite T. unfold bind. destruct (lift _ w) as [[]]; try reflexivity; apply G.
Qed.
Print Assumptions C94_grouping.

(** [complex_number] is for texts only, and only for those with the word [i]. *)
Theorem C94_complex_number : forall V W (c : ctx V W) parse splitter dbg cf b,
  let cf' := config_with_complex_number cf b in
  (forall toks w, eval_tokens (configured cf c) dbg toks w = eval_tokens (configured cf' c) dbg toks w) /\
  (forall s w, ~ In (lit "i") (splitter s) ->
     tokenize (configured cf c) parse splitter s = tokenize (configured cf' c) parse splitter s /\
     eval (configured cf c) parse splitter dbg s w = eval (configured cf' c) parse splitter dbg s w).
Proof.
  intros V W c parse splitter dbg cf b cf'.
  assert (G : forall toks w, eval_tokens (configured cf c) dbg toks w = eval_tokens (configured cf' c) dbg toks w) by (intros toks w; apply eval_tokens_cfg; left; reflexivity).
  split; [exact G|]. intros s w H.
  assert (T : tokenize (configured cf c) parse splitter s = tokenize (configured cf' c) parse splitter s) by (apply tokenize_cfg; right; exact H).
  split; [exact T|]. unfold eval. rewrite T. unfold bind. destruct (lift _ w) as [[]]; try reflexivity; apply G.
Qed.
Print Assumptions C94_complex_number.

(** [implicit_mul] has no influence on how a text is split into tokens, and none on the value of tokens of which no two neighbours multiply. *)
Theorem C94_implicit_mul : forall V W (c : ctx V W) parse splitter dbg cf b,
  let cf' := config_with_implicit_mul cf b in
  (forall s, tokenize (configured cf c) parse splitter s = tokenize (configured cf' c) parse splitter s) /\
  (forall toks w, juxtapositions toks = 0 -> eval_tokens (configured cf c) dbg toks w = eval_tokens (configured cf' c) dbg toks w).
Proof.
  intros V W c parse splitter dbg cf b cf'. split.
  - intros s. apply tokenize_cfg. left. reflexivity.
  - intros toks w H. apply eval_tokens_cfg; [right; exact H|left; reflexivity].
Qed.
Print Assumptions C94_implicit_mul.

(** [custom_function_call] has no influence on the tokens of a text. Turned on it changes nothing if every function name is followed by a
    parenthesis, and otherwise it changes no outcome but the error [InvalidInput]: what was a value stays that value, with the same effects. *)
Theorem C94_custom_function_call : forall V W (c : ctx V W) parse splitter dbg cf,
  let off := configured (config_with_custom_function_call cf false) c in
  let on := configured (config_with_custom_function_call cf true) c in
  (forall s, tokenize off parse splitter s = tokenize on parse splitter s) /\
  (forall toks w, parenthesised toks -> eval_tokens off dbg toks w = eval_tokens on dbg toks w) /\
  (forall toks w, eval_tokens off dbg toks w = eval_tokens on dbg toks w \/ eval_tokens off dbg toks w = (Err InvalidInput, w)) /\
  (forall s w v w', eval off parse splitter dbg s w = (Ok v, w') -> eval on parse splitter dbg s w = (Ok v, w')).
Proof.
  intros V W c parse splitter dbg cf off on.
  assert (T : forall s, tokenize off parse splitter s = tokenize on parse splitter s) by (intros s; apply tokenize_cfg; left; reflexivity).
  assert (G : forall toks w, eval_tokens off dbg toks w = eval_tokens on dbg toks w \/ eval_tokens off dbg toks w = (Err InvalidInput, w))
    by (intros toks w; apply eval_tokens_custom; reflexivity).
  split; [exact T|]. split; [intros toks w H; apply eval_tokens_cfg; [left; reflexivity|right; exact H]|]. split; [exact G|].
  intros s w v w' H. unfold eval in *. rewrite <- T. unfold bind in *. destruct (lift _ w) as [[toks| |] w1]; try discriminate H.
  destruct (G toks w1) as [E|E]; [rewrite <- E; exact H|]. rewrite E in H. discriminate H.
Qed.
Print Assumptions C94_custom_function_call.

(** Turned off, a function name that no parenthesis follows (directly, or at the end) makes the whole input an error or a panic, wherever it
    is. ([TClose 40] is no token of a text.) *)
Theorem C94_custom_off : forall V W (c : ctx V W) dbg pre f rest w v w', custom_function_call (cfg c) = false ->
  (forall rest', rest <> TOpen 40%N :: rest' /\ rest <> TClose 40%N :: rest') ->
  eval_tokens c dbg (pre ++ TFunction f :: rest) w <> (Ok v, w').
Proof.
  intros V W c dbg pre f rest w v w' Hc Hr H. unfold eval_tokens, infix_to_rpn in H.
  assert (N : next_paren (hd_error rest) = false).
  { destruct rest as [|[| | | | | | |o|o| |] rest]; try reflexivity; cbn; unfold char_eqb; destruct (N.eqb_spec o 40) as [->|]; try reflexivity; exfalso; destruct (Hr rest) as (A & B); [apply A|apply B]; reflexivity. }
  pose proof (yard_loop_refuses V W c dbg Hc (pre ++ TFunction f :: rest) f rest pre 0 (Yard [] [] [] []) N) as R.
  destruct (yard_loop c dbg _ 0 _ _) as [y| |]; [exact (R y eq_refl)| |]; discriminate H.
Qed.
Print Assumptions C94_custom_off.

(** The settings do make a difference where these theorems leave room for one. *)
Definition outcome (cf : config) (s : str) : res Z := fst (eval (std_ctx cf) (ModelParse.parse_int ModelNum.i64) (ModelSplit.split_into_tokens ModelSplit.default_splitter) true s tt).
Example C94_case :
  outcome plain_config (lit "2(3)") = Err InvalidExpression /\ outcome implicit_config (lit "2(3)") = Ok 6%Z /\
  outcome plain_config (lit "2 + max[1, 3]") = Err InvalidInput /\ outcome custom_config (lit "2 + max[1, 3]") = Ok 5%Z /\
  outcome plain_config (lit "2 + max(1, 3)") = Ok 5%Z /\ outcome custom_config (lit "2 + max(1, 3)") = Ok 5%Z /\
  outcome (config_with_grouping plain_config Bracket) (lit "2 * {3 + [4]}") = outcome plain_config (lit "2 * {3 + [4]}") /\
  outcome plain_config (lit "2 * {3 + [4]}") = Ok 14%Z.
Proof. vm_compute. repeat split. Qed.
