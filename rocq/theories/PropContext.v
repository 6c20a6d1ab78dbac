(** * The properties of contexts, names and string helpers (C18-C24, C39, C40, C42)

    Vocabulary: SpecText (strings that differ in ASCII case, legal names, histories of calls), SpecFrame. In all
    theorems [E : env] stands for what the model leaves open: the lower case of non-ASCII characters and whether a
    hash map happens to compare keys whose hashes differ; [dbg] for a debug or a release build. *)
From Coq Require Import List NArith ZArith Bool Arith Lia String.
From Verif Require Import ModelBase ModelContext ModelEvaluator ModelText ModelDefault ModelStr ModelFloat ModelNum ModelOps ModelStd
  SpecExpr SpecTokens SpecText SpecFrame ProofText ProofFrame ProofDefault ProofWf.
Import ListNotations.

(** ** C18 *)

(** Constants, functions and operators are found under every ASCII respelling of a name. *)
Theorem C18_lookup_ignores_ascii_case : forall V W (E : env) (d : dctx V W) (q q' : str), ascii_alike q q' ->
  get_constant (to_ctx E d) q = get_constant (to_ctx E d) q' /\ get_function (to_ctx E d) q = get_function (to_ctx E d) q' /\
  get_unary (to_ctx E d) q = get_unary (to_ctx E d) q' /\ get_binary (to_ctx E d) q = get_binary (to_ctx E d) q'.
Proof. exact (fun V W E => @lookup_alike V W E). Qed.
Print Assumptions C18_lookup_ignores_ascii_case.

(** Respelling these names anywhere in a token sequence changes neither the result nor the effects of evaluating it. *)
Theorem C18_eval_ignores_ascii_case : forall V W (E : env) (dbg : bool) (d : dctx V W) toks toks' (w : W),
  Forall2 respelt toks toks' -> eval_tokens (to_ctx E d) dbg toks w = eval_tokens (to_ctx E d) dbg toks' w.
Proof. exact (fun V W E dbg => @eval_respelt V W E dbg). Qed.
Print Assumptions C18_eval_ignores_ascii_case.

Example C18_case : ascii_alike (lit "MaX") (lit "max") /\ ~ ascii_alike (lit "max") (lit "min") /\
  fst (eval_tokens (std_ctx plain_config) true [TFunction (lit "MaX"); TOpen 40; TNumber 2%Z; TComma; TNumber 7%Z; TClose 41]%N tt) = Ok 7%Z.
Proof.
  split; [apply fold_alike; reflexivity|]. split; [intros H; apply fold_alike in H; vm_compute in H; discriminate|]. vm_compute. reflexivity.
Qed.

(** ** C19 *)

(** After any history of calls no variable and no constant have names that are equal ignoring case. *)
Theorem C19_names_never_clash : forall V W (E : env) (dbg : bool) cf h (d : dctx V W) x y, history E dbg cf h d ->
  get_variable (to_ctx E d) x <> None -> get_constant (to_ctx E d) y <> None -> eq_ignore_case E x y = false.
Proof. exact (fun V W E dbg cf => @names_never_clash V W E dbg cf). Qed.
Print Assumptions C19_names_never_clash.

(** [set_variable] succeeds exactly when the name is legal (checked in debug builds only) and no constant of that name,
    ignoring case, was added. *)
Theorem C19_set_variable_succeeds : forall V W (E : env) (dbg : bool) cf h (d : dctx V W) n v, history E dbg cf h d ->
  ((exists o, fst (set_variable E dbg n v d) = Ok o) <->
   (dbg = true -> valid_name n) /\ ~ exists m, constant_added m h /\ eq_ignore_case E m n = true).
Proof. exact (fun V W E dbg cf => @set_variable_succeeds V W E dbg cf). Qed.
Print Assumptions C19_set_variable_succeeds.

(** [add_constant] succeeds exactly when the name is legal and no variable of that name, ignoring case, was set. *)
Theorem C19_add_constant_succeeds : forall V W (E : env) (dbg : bool) cf h (d : dctx V W) n v, history E dbg cf h d ->
  (fst (add_constant E dbg n v d) = Ok tt <->
   (dbg = true -> valid_name n) /\ ~ exists m, variable_set m h /\ eq_ignore_case E m n = true).
Proof. exact (fun V W E dbg cf => @add_constant_succeeds V W E dbg cf). Qed.
Print Assumptions C19_add_constant_succeeds.

(** Whatever the call, an error leaves the context as it was. *)
Theorem C19_error_changes_nothing : forall V W (E : env) (dbg : bool) (x : call V W) d k d',
  perform E dbg x d = (Err k, d') -> d' = d.
Proof. exact (fun V W E dbg => @perform_err V W E dbg). Qed.
Print Assumptions C19_error_changes_nothing.

(** After a successful [add_constant] the constant has its value under every ASCII respelling, and constants whose name
    is not equal to it ignoring case keep theirs. *)
Theorem C19_add_constant : forall V W (E : env) (dbg : bool) n v (d d' : dctx V W), add_constant E dbg n v d = (Ok tt, d') ->
  (forall n', ascii_alike n' n -> get_constant (to_ctx E d') n' = Some v) /\
  (forall q, eq_ignore_case E q n = false -> get_constant (to_ctx E d') q = get_constant (to_ctx E d) q).
Proof. exact (fun V W E dbg => @add_constant_result V W E dbg). Qed.
Print Assumptions C19_add_constant.

Example C19_case : exists d : dctx Z unit,
  history std_env true plain_config
    [(SetVariable (lit "x") 1%Z, Ok None); (AddConstant (lit "Pi") 3%Z, Ok None); (SetVariable (lit "pI") 4%Z, Err Unknown_);
     (AddConstant (lit "X") 9%Z, Err Unknown_); (SetVariable (lit "x") 2%Z, Ok (Some 1%Z))] d /\
  get_variable (to_ctx std_env d) (lit "x") = Some 2%Z /\ get_constant (to_ctx std_env d) (lit "PI") = Some 3%Z.
Proof.
  pose (xs := [SetVariable (W := unit) (lit "x") 1%Z; AddConstant (lit "Pi") 3%Z; SetVariable (lit "pI") 4%Z; AddConstant (lit "X") 9%Z;
               SetVariable (lit "x") 2%Z]).
  exists (snd (replay std_env true xs [] (with_config plain_config))). split; [|split; vm_compute; reflexivity].
  pose proof (replay_history std_env true plain_config xs [] (with_config plain_config) (H_new _ _ _)) as H.
  replace (fst (replay std_env true xs [] (with_config plain_config))) with
    [(SetVariable (W := unit) (lit "x") 1%Z, Ok None); (AddConstant (lit "Pi") 3%Z, Ok None); (SetVariable (lit "pI") 4%Z, Err Unknown_);
     (AddConstant (lit "X") 9%Z, Err Unknown_); (SetVariable (lit "x") 2%Z, Ok (Some 1%Z))] in H by (vm_compute; reflexivity).
  exact H.
Qed.

(** ** C20 *)

(** After any history, the value of a variable is the one last given to it by a successful [set_variable]. *)
Theorem C20_variables_are_a_map : forall V W (E : env) (dbg : bool) cf h (d : dctx V W) x, history E dbg cf h d ->
  get_variable (to_ctx E d) x = last_set x h.
Proof. exact (fun V W E dbg cf => @history_variables V W E dbg cf). Qed.
Print Assumptions C20_variables_are_a_map.

(** One call: it fails and changes nothing, or it returns the previous value, changes that variable only... *)
Theorem C20_set_variable : forall V W (E : env) (dbg : bool) n v (d : dctx V W) r d', set_variable E dbg n v d = (r, d') ->
  (exists k, r = Err k /\ d' = d) \/
  (r = Ok (get_variable (to_ctx E d) n) /\
   forall x, get_variable (to_ctx E d') x = if str_eqb n x then Some v else get_variable (to_ctx E d) x).
Proof. exact (fun V W E dbg => @set_variable_result V W E dbg). Qed.
Print Assumptions C20_set_variable.

(** ... and leaves the configuration, the constants, functions and operators as they were. *)
Theorem C20_set_variable_frame : forall V W (E : env) (dbg : bool) n v (d : dctx V W) r d', set_variable E dbg n v d = (r, d') ->
  d_config d' = d_config d /\ d_consts d' = d_consts d /\ d_funs d' = d_funs d /\ d_unary d' = d_unary d /\ d_binary d' = d_binary d.
Proof. exact (fun V W E dbg n v => @perform_frame V W E dbg (SetVariable n v)). Qed.
Print Assumptions C20_set_variable_frame.

Example C20_case : last_set (lit "x") [(SetVariable (W := unit) (lit "x") 1%Z, Ok None); (SetVariable (lit "y") 5%Z, Ok None);
  (SetVariable (lit "x") 2%Z, Ok (Some 1%Z)); (SetVariable (lit "x") 3%Z, Err Unknown_)] = Some 2%Z.
Proof. reflexivity. Qed.

(** ** C21 *)

(** Equality ignoring case is an equivalence, and is what the comparison calls [Equal]. *)
Theorem C21_equivalence : forall (E : env),
  (forall a, eq_ignore_case E a a = true) /\ (forall a b, eq_ignore_case E a b = eq_ignore_case E b a) /\
  (forall a b c, eq_ignore_case E a b = true -> eq_ignore_case E b c = true -> eq_ignore_case E a c = true) /\
  (forall a b, eq_ignore_case E a b = true <-> cmp_ignore_case E a b = Eq).
Proof. exact (fun E => conj (eq_ic_refl E) (conj (eq_ic_sym E) (conj (eq_ic_trans E)
  (fun a b => iff_trans (eq_ic E a b) (iff_sym (cmp_ic_eq E a b)))))). Qed.
Print Assumptions C21_equivalence.

(** It is letter by letter: two strings are equal ignoring case exactly when their lower cases agree position by position. *)
Theorem C21_letter_by_letter : forall (E : env) a b,
  eq_ignore_case E a b = true <-> Forall2 (fun x y => to_lowercase E x = to_lowercase E y) a b.
Proof.
  intros E a b. rewrite eq_ic. split.
  - revert b. induction a as [|x a IH]; intros [|y b] H; try discriminate; constructor; injection H; auto.
  - intros H. induction H as [|x y a b Hx H IH]; [reflexivity|]. cbn [map]. congruence.
Qed.
Print Assumptions C21_letter_by_letter.

(** The comparison is a total order on the classes of that equivalence. *)
Theorem C21_total_order : forall (E : env),
  (forall a b, cmp_ignore_case E b a = CompOpp (cmp_ignore_case E a b)) /\
  (forall a b c, cmp_ignore_case E a b = Lt -> cmp_ignore_case E b c = Lt -> cmp_ignore_case E a c = Lt) /\
  (forall a a' b, eq_ignore_case E a a' = true -> cmp_ignore_case E a b = cmp_ignore_case E a' b).
Proof.
  exact (fun E => conj (cmp_ic_anti E) (conj (cmp_ic_trans E) (fun a a' b H =>
    eq_trans (cmp_lower E a b) (eq_trans (f_equal (fun l => lex cmp_chars l (map (to_lowercase E) b)) (proj1 (eq_ic E a a') H))
      (eq_sym (cmp_lower E a' b)))))).
Qed.
Print Assumptions C21_total_order.

Example C21_case : eq_ignore_case std_env (lit "HeLLo") (lit "hEllO") = true /\ cmp_ignore_case std_env (lit "ab") (lit "ABC") = Lt.
Proof. vm_compute. split; reflexivity. Qed.

(** ** C22 *)

(** ASCII strings: equal ignoring case exactly when they feed the hasher the same bytes. *)
Theorem C22_ascii_hash_contract : forall (E : env) a b, ascii_string a -> ascii_string b ->
  (eq_ignore_case E a b = true <-> hash_input a = hash_input b).
Proof.
  intros E a b Ha Hb. split.
  - intros H. apply alike_hash. eapply ascii_eq_ic; eassumption.
  - intros H. apply eq_ic. apply alike_lower. apply hash_alike; [..|exact H]; eapply Forall_impl; try eassumption;
      intros c Hc; unfold is_scalar; cbv beta in Hc; apply orb_true_iff; left; apply N.ltb_lt; lia.
Qed.
Print Assumptions C22_ascii_hash_contract.

(** All strings: same bytes exactly when they differ only in ASCII case; and then they are equal. *)
Theorem C22_hash_is_ascii_case : forall (E : env) a b, unicode_string a -> unicode_string b ->
  (hash_input a = hash_input b <-> ascii_alike a b) /\ (hash_input a = hash_input b -> eq_ignore_case E a b = true).
Proof.
  exact (fun E a b Ha Hb => conj (conj (hash_alike a b Ha Hb) (alike_hash a b))
    (fun H => proj2 (eq_ic E a b) (alike_lower E a b (hash_alike a b Ha Hb H)))).
Qed.
Print Assumptions C22_hash_is_ascii_case.

(** Capital pi (928) and small pi (960) are equal but hash differently, so a constant added under one name need not be
    found under the other: it is not, unless the table happens to compare keys with different hashes. *)
Theorem C22_hash_contract_refuted : exists (E : env) a b, unicode_string a /\ unicode_string b /\
  eq_ignore_case E a b = true /\ hash_input a <> hash_input b /\
  exists d : dctx Z unit, add_constant E true a 3%Z (with_config config_new) = (Ok tt, d) /\ get_constant (to_ctx E d) b = None
    /\ fst (set_variable E true b 4%Z d) = Err Unknown_.
Proof.
  exists std_env, [928%N], [960%N]. split; [repeat constructor|]. split; [repeat constructor|].
  split; [vm_compute; reflexivity|]. split; [vm_compute; discriminate|]. eexists. split; [vm_compute; reflexivity|].
  split; vm_compute; reflexivity.
Qed.
Print Assumptions C22_hash_contract_refuted.

Example C22_case : hash_input (lit "Sin") = hash_input (lit "sIN") /\ ascii_string (lit "Sin") /\ unicode_string [928; 8490]%N.
Proof. split; [vm_compute; reflexivity|]. split; repeat constructor. Qed.

(** ** C23 *)

(** [add_function_as], in general; the other two have the same shape. It succeeds exactly when the name is legal and
    free, the aliases are free, and no alias is an earlier one again. *)
Theorem C23_add_function_succeeds : forall V W (E : env) (dbg : bool) (f : func V W) n d,
  Forall ascii_string (fn_aliases f) ->
  (fst (add_function_as E dbg f n d) = Ok tt <->
   (dbg = true -> valid_name n) /\ get_function (to_ctx E d) n = None /\
   (forall a, In a (fn_aliases f) -> get_function (to_ctx E d) a = None) /\
   ForallOrdPairs (fun a b => eq_ignore_case E b a = false) (fn_aliases f)).
Proof.
  intros V W E dbg f n d Ha. unfold add_function_as. pose proof (register_iff E dbg (fn_aliases f) f n (d_funs d)) as R.
  destruct (register E dbg (fn_aliases f) f n (d_funs d)) as [r m]. simpl in *. rewrite R.
  assert (P : ForallOrdPairs (fun a b => key_match E b a = false) (fn_aliases f) <-> ForallOrdPairs (fun a b => eq_ignore_case E b a = false) (fn_aliases f)).
  { clear -Ha. induction Ha as [|a l Hx Ha IH]; [split; constructor|]. split; intros H; inversion H as [|? ? H1 H2]; subst;
      (constructor; [|apply IH; assumption]); rewrite Forall_forall in *; intros b Hb; specialize (H1 b Hb);
      [rewrite <- (key_match_ascii E) | rewrite (key_match_ascii E)]; auto. }
  rewrite P. reflexivity.
Qed.
Print Assumptions C23_add_function_succeeds.

(** After a success the entry is found under the name and every alias, in any ASCII case; entries found before are still
    found; nothing else is. *)
Theorem C23_add_function : forall V W (E : env) (dbg : bool) (f : func V W) n d d', add_function_as E dbg f n d = (Ok tt, d') ->
  (forall a a', In a (fn_aliases f ++ [n]) -> ascii_alike a' a -> get_function (to_ctx E d) a = None /\ get_function (to_ctx E d') a' = Some f) /\
  (forall q g, get_function (to_ctx E d) q = Some g -> get_function (to_ctx E d') q = Some g) /\
  (forall q g, get_function (to_ctx E d') q = Some g -> get_function (to_ctx E d) q = Some g \/
     (get_function (to_ctx E d) q = None /\ g = f /\ exists a, In a (fn_aliases f ++ [n]) /\ eq_ignore_case E q a = true)) /\
  d_vars d' = d_vars d /\ d_consts d' = d_consts d /\ d_unary d' = d_unary d /\ d_binary d' = d_binary d /\ d_config d' = d_config d.
Proof.
  intros V W E dbg f n d d' H. unfold add_function_as in H. destruct (register E dbg (fn_aliases f) f n (d_funs d)) as [r m] eqn:Er.
  injection H as -> <-. simpl. destruct (register_ok _ _ _ _ _ _ _ Er) as (ext & _ & _ & Hn).
  split; [exact Hn|]. split; [intros q g; exact (register_keeps E dbg _ _ _ _ _ q g Er)|].
  split; [intros q g; exact (register_only E dbg _ _ _ _ _ q g Er)|]. auto.
Qed.
Print Assumptions C23_add_function.

Theorem C23_add_unary : forall V W (E : env) (dbg : bool) (f : ufunc V W) n d d', add_unary_function_as E dbg f n d = (Ok tt, d') ->
  (forall a a', In a (uf_aliases f ++ [n]) -> ascii_alike a' a -> get_unary (to_ctx E d) a = None /\ get_unary (to_ctx E d') a' = Some f) /\
  (forall q g, get_unary (to_ctx E d) q = Some g -> get_unary (to_ctx E d') q = Some g) /\
  (forall q g, get_unary (to_ctx E d') q = Some g -> get_unary (to_ctx E d) q = Some g \/
     (get_unary (to_ctx E d) q = None /\ g = f /\ exists a, In a (uf_aliases f ++ [n]) /\ eq_ignore_case E q a = true)) /\
  d_vars d' = d_vars d /\ d_consts d' = d_consts d /\ d_funs d' = d_funs d /\ d_binary d' = d_binary d /\ d_config d' = d_config d.
Proof.
  intros V W E dbg f n d d' H. unfold add_unary_function_as in H. destruct (register E dbg (uf_aliases f) f n (d_unary d)) as [r m] eqn:Er.
  injection H as -> <-. simpl. destruct (register_ok _ _ _ _ _ _ _ Er) as (ext & _ & _ & Hn).
  split; [exact Hn|]. split; [intros q g; exact (register_keeps E dbg _ _ _ _ _ q g Er)|].
  split; [intros q g; exact (register_only E dbg _ _ _ _ _ q g Er)|]. auto.
Qed.
Print Assumptions C23_add_unary.

Theorem C23_add_binary : forall V W (E : env) (dbg : bool) (f : bfunc V W) n d d', add_binary_function_as E dbg f n d = (Ok tt, d') ->
  (forall a a', In a (bf_aliases f ++ [n]) -> ascii_alike a' a -> get_binary (to_ctx E d) a = None /\ get_binary (to_ctx E d') a' = Some f) /\
  (forall q g, get_binary (to_ctx E d) q = Some g -> get_binary (to_ctx E d') q = Some g) /\
  (forall q g, get_binary (to_ctx E d') q = Some g -> get_binary (to_ctx E d) q = Some g \/
     (get_binary (to_ctx E d) q = None /\ g = f /\ exists a, In a (bf_aliases f ++ [n]) /\ eq_ignore_case E q a = true)) /\
  d_vars d' = d_vars d /\ d_consts d' = d_consts d /\ d_funs d' = d_funs d /\ d_unary d' = d_unary d /\ d_config d' = d_config d.
Proof.
  intros V W E dbg f n d d' H. unfold add_binary_function_as in H. destruct (register E dbg (bf_aliases f) f n (d_binary d)) as [r m] eqn:Er.
  injection H as -> <-. simpl. destruct (register_ok _ _ _ _ _ _ _ Er) as (ext & _ & _ & Hn).
  split; [exact Hn|]. split; [intros q g; exact (register_keeps E dbg _ _ _ _ _ q g Er)|].
  split; [intros q g; exact (register_only E dbg _ _ _ _ _ q g Er)|]. auto.
Qed.
Print Assumptions C23_add_binary.

(** A taken name is an error (and by C19_error_changes_nothing changes nothing). *)
Theorem C23_taken_name : forall V W (E : env) (dbg : bool) n (d : dctx V W), (dbg = true -> valid_name n) ->
  (forall f, get_function (to_ctx E d) n <> None -> fst (add_function_as E dbg f n d) = Err Unknown_) /\
  (forall f, get_unary (to_ctx E d) n <> None -> fst (add_unary_function_as E dbg f n d) = Err Unknown_) /\
  (forall f, get_binary (to_ctx E d) n <> None -> fst (add_binary_function_as E dbg f n d) = Err Unknown_).
Proof.
  intros V W E dbg n d Hv. apply validate_iff in Hv. split; [|split]; intros f Hn; simpl in Hn;
    unfold add_function_as, add_unary_function_as, add_binary_function_as, register; rewrite Hv;
    match type of Hn with ?x <> None => destruct x eqn:Ex; [reflexivity|congruence] end.
Qed.
Print Assumptions C23_taken_name.

(** That registering never panics and is atomic is false: an alias that is taken panics after the aliases before it were
    inserted. *)
Theorem C23_atomic_refuted : exists (E : env) (f : func Z unit) n d d', valid_name n /\ Forall valid_name (fn_aliases f) /\
  get_function (to_ctx E d) n = None /\ add_function_as E true f n d = (Panic, d') /\
  exists a, get_function (to_ctx E d) a = None /\ get_function (to_ctx E d') a = Some f.
Proof.
  pose (g := Func (lit "old") [] (fun _ : list Z => @ret unit Z 0%Z)).
  pose (f := Func (lit "new") [lit "a"; lit "old"] (fun _ : list Z => @ret unit Z 1%Z)).
  exists std_env, f, (lit "new"), (snd (add_function std_env true g (with_config config_new))). eexists.
  split; [apply check_name; reflexivity|]. split; [repeat constructor; try (apply check_name; reflexivity)|].
  split; [vm_compute; reflexivity|]. split; [vm_compute; reflexivity|]. exists (lit "a"). split; vm_compute; reflexivity.
Qed.
Print Assumptions C23_atomic_refuted.

Example C23_case : let f := Func (lit "mean") [lit "average"] (fun _ : list Z => @ret unit Z 0%Z) in
  exists d', add_function std_env true f (std plain_config) = (Ok tt, d') /\ Forall ascii_string (fn_aliases f) /\
  match get_function (to_ctx std_env d') (lit "AVERAGE") with Some g => str_eqb (fn_name g) (lit "mean") | None => false end = true.
Proof.
  intros f. exists (snd (add_function std_env true f (std plain_config))). split; [|split; [repeat constructor|vm_compute; reflexivity]].
  destruct (add_function std_env true f (std plain_config)) as [r d] eqn:Ea. simpl. f_equal.
  change r with (fst (r, d)). rewrite <- Ea. vm_compute. reflexivity.
Qed.

(** ** C24 *)

(** The three pairs of symbols: ( ) [ ] { }. *)
Definition group_pairs : list (char * char) := [(40, 41); (91, 93); (123, 125)]%N.

Theorem C24_group_symbols_agree : forall (cf : config) (ch o cl : char),
  (get_group_symbol cf ch = Some (o, cl) <-> In (o, cl) group_pairs /\ (ch = o \/ ch = cl)) /\
  (get_group_open_for cf ch = Some o <-> In (o, ch) group_pairs) /\
  (get_group_close_for cf ch = Some cl <-> In (ch, cl) group_pairs) /\
  (is_group_open cf ch = true <-> exists cl', In (ch, cl') group_pairs) /\
  (is_group_close cf ch = true <-> exists o', In (o', ch) group_pairs).
Proof.
  intros cf ch o cl. unfold get_group_symbol, get_group_open_for, get_group_close_for, is_group_open, is_group_close, group_pairs.
  assert (G : match grouping_new ch with
              | Some Parenthesis => ch = 40 \/ ch = 41 | Some Bracket => ch = 91 \/ ch = 93
              | Some Brace => ch = 123 \/ ch = 125
              | None => ch <> 40 /\ ch <> 41 /\ ch <> 91 /\ ch <> 93 /\ ch <> 123 /\ ch <> 125 end%N).
  { unfold grouping_new, char_eqb.
    destruct (N.eqb_spec ch 40), (N.eqb_spec ch 41), (N.eqb_spec ch 91), (N.eqb_spec ch 93), (N.eqb_spec ch 123), (N.eqb_spec ch 125); simpl; tauto. }
  destruct (grouping_new ch) as [g|] eqn:Eg.
  - destruct g; destruct G as [-> | ->]; simpl; unfold grouping_close_for, grouping_open_for; simpl; clear Eg; repeat split; intros;
      repeat match goal with
      | H : _ /\ _ |- _ => destruct H
      | H : _ \/ _ |- _ => destruct H
      | H : exists _, _ |- _ => destruct H
      | H : Some _ = Some _ |- _ => injection H; clear H; intros
      | H : (_, _) = (_, _) |- _ => injection H; clear H; intros
      | H : False |- _ => destruct H
      end; subst; try discriminate; try reflexivity; eauto 8.
  - simpl. destruct G as (G1 & G2 & G3 & G4 & G5 & G6). clear Eg. repeat split; intros;
      repeat match goal with
      | H : _ /\ _ |- _ => destruct H
      | H : _ \/ _ |- _ => destruct H
      | H : exists _, _ |- _ => destruct H
      | H : (_, _) = (_, _) |- _ => injection H; clear H; intros
      | H : False |- _ => destruct H
      end; congruence.
Qed.
Print Assumptions C24_group_symbols_agree.

(** That only the pairs enabled by [with_grouping] are recognised is false: [Config::new()] enables parentheses only and
    recognises all three. *)
Theorem C24_configured_grouping_refuted : exists cf g, ~ In g (cfg_grouping cf) /\ cfg_grouping cf <> [] /\
  is_group_open cf (grouping_open g) = true /\ get_group_symbol cf (grouping_open g) <> None.
Proof. exists config_new, Bracket. split; [intros [H|[]]; discriminate|]. split; [discriminate|]. split; [reflexivity|discriminate]. Qed.
Print Assumptions C24_configured_grouping_refuted.

(** ** C39 *)
Theorem C39_eq_char : forall s ch, eq_char s ch = true <-> s = [ch].
Proof. exact eq_char_spec. Qed.
Print Assumptions C39_eq_char.
Theorem C39_single_char : forall s ch, single_char s = Some ch <-> s = [ch].
Proof. exact single_char_spec. Qed.
Print Assumptions C39_single_char.

(** [to_sentence_case]: the first alphanumeric character in upper case, every other in lower case (ASCII). *)
Theorem C39_sentence_case : forall ualnum,
  (forall pre c post, Forall (fun x => is_alphanumeric ualnum x = false) pre -> is_alphanumeric ualnum c = true ->
     to_sentence_case ualnum (pre ++ c :: post) = map to_ascii_lowercase pre ++ to_ascii_uppercase c :: map to_ascii_lowercase post) /\
  (forall s, Forall (fun x => is_alphanumeric ualnum x = false) s -> to_sentence_case ualnum s = map to_ascii_lowercase s).
Proof. exact (fun u => conj (sentence_first u) (sentence_none u)). Qed.
Print Assumptions C39_sentence_case.

(** [to_capital_case]: sentence case in every word, white space kept. *)
Theorem C39_capital_case : forall ualnum,
  (forall a c b, is_whitespace c = true -> to_capital_case ualnum (a ++ c :: b) = to_capital_case ualnum a ++ c :: to_capital_case ualnum b) /\
  (forall s, Forall (fun x => is_whitespace x = false) s -> to_capital_case ualnum s = to_sentence_case ualnum s).
Proof. exact (fun u => conj (fun a c b => capital_space u a c b true) (capital_word u)). Qed.
Print Assumptions C39_capital_case.

(** Both change ASCII case only and are idempotent, on all strings. *)
Theorem C39_case_only_and_idempotent : forall ualnum s,
  ascii_alike s (to_sentence_case ualnum s) /\ ascii_alike s (to_capital_case ualnum s) /\
  to_sentence_case ualnum (to_sentence_case ualnum s) = to_sentence_case ualnum s /\
  to_capital_case ualnum (to_capital_case ualnum s) = to_capital_case ualnum s.
Proof. exact (fun u s => conj (sentence_letters u s false) (conj (capital_letters u s true) (conj (sentence_idem u s false) (capital_idem u s true)))). Qed.
Print Assumptions C39_case_only_and_idempotent.

Example C39_case : to_capital_case (fun _ => true) (lit "  1hello wORLD _x") = lit "  1hello World _X" /\
  to_sentence_case (fun _ => true) (lit "  hELLO World") = lit "  Hello world".
Proof. vm_compute. split; reflexivity. Qed.

(** ** C40 *)

Definition call_name {V W} (x : call V W) : str :=
  match x with SetVariable n _ | AddConstant n _ | AddFunction _ n | AddUnary _ n | AddBinary _ n => n end.

(** The names that are legal, character by character: not empty; no character up to space or from delete to no-break space, and none
    of Unicode's other spaces. *)
Theorem C40_legal_names : forall s, valid_name s <-> s <> [] /\
  Forall (fun c => 32 < c /\ ~ (127 <= c <= 160) /\ ~ In c [5760; 8192; 8193; 8194; 8195; 8196; 8197; 8198; 8199; 8200; 8201; 8202; 8232; 8233; 8239; 8287; 12288])%N s.
Proof.
  assert (W : forall c, is_whitespace c = false /\ is_control c = false <->
    (32 < c /\ ~ (127 <= c <= 160) /\ ~ In c [5760; 8192; 8193; 8194; 8195; 8196; 8197; 8198; 8199; 8200; 8201; 8202; 8232; 8233; 8239; 8287; 12288])%N).
  { intros c. unfold is_whitespace, is_control, between. rewrite !orb_false_iff, !andb_false_iff, !N.eqb_neq, !N.leb_gt. cbn [In]. lia. }
  intros s. unfold valid_name. split.
  - intros (X & A & B). split; [intros ->; inversion X|]. rewrite Forall_forall in *. intros c H. apply W. split; [exact (A c H)|exact (B c H)].
  - intros (N & A). assert (A' : Forall (fun c => is_whitespace c = false /\ is_control c = false) s) by (eapply Forall_impl; [|exact A]; intros c; apply W).
    rewrite Forall_forall in A'. split; [|split; apply Forall_forall; intros c H; apply (A' c H)]. destruct s as [|c s]; [congruence|]. left. apply (A' c). left. reflexivity.
Qed.
Print Assumptions C40_legal_names.

(** Debug builds refuse every call with an illegal name, with [Empty] if it is blank and [InvalidInput] if not, and change
    nothing. *)
Theorem C40_debug_refuses : forall V W (E : env) (x : call V W) d, ~ valid_name (call_name x) ->
  perform E true x d = (Err (if forallb is_whitespace (call_name x) then Empty else InvalidInput), d).
Proof.
  intros V W E x d H. set (k := if forallb is_whitespace (call_name x) then Empty else InvalidInput).
  assert (C : check_token_name (call_name x) = Err k).
  { unfold k. clear k. destruct (check_name_cases (call_name x)) as [C|[k C]]; [apply check_name in C; contradiction|].
    rewrite C. f_equal. unfold check_token_name in C. destruct (trim (call_name x)) as [|t0 r] eqn:Et.
    - apply trim_nil in Et. assert (F : forallb is_whitespace (call_name x) = true) by (apply forallb_forall; rewrite Forall_forall in Et; exact Et).
      rewrite F. congruence.
    - destruct (forallb is_whitespace (call_name x)) eqn:F.
      + assert (trim (call_name x) = []) by (apply trim_nil; apply Forall_forall; rewrite forallb_forall in F; exact F). congruence.
      + destruct (existsb is_whitespace (call_name x)), (existsb is_control (call_name x)); congruence. }
  assert (Vd : validate true (call_name x) = Err k) by exact C. clear C H.
  destruct x as [n v|n v|f n|f n|f n]; cbn [perform call_name] in *; unfold set_variable, unit_result, add_constant, add_function_as, add_unary_function_as,
    add_binary_function_as, register; rewrite Vd; try reflexivity; simpl; destruct d; reflexivity.
Qed.
Print Assumptions C40_debug_refuses.

(** Release builds never refuse a name for its form: a call fails only if the name is taken (constants and variables: by
    the other kind). *)
Theorem C40_release_accepts : forall V W (E : env) (x : call V W) d k d', perform E false x d = (Err k, d') ->
  match x with
  | SetVariable n _ => exists m v, In (m, v) (d_consts d) /\ eq_ignore_case E m n = true
  | AddConstant n _ => exists m v, In (m, v) (d_vars d) /\ eq_ignore_case E m n = true
  | AddFunction _ n => get_function (to_ctx E d) n <> None
  | AddUnary _ n => get_unary (to_ctx E d) n <> None
  | AddBinary _ n => get_binary (to_ctx E d) n <> None
  end.
Proof.
  intros V W E x d k d' H. destruct x as [n v|n v|f n|f n|f n]; simpl in H.
  - unfold set_variable in H. simpl in H. destruct (existsb _ _) eqn:Ee; [|discriminate].
    apply existsb_exists in Ee. destruct Ee as ([m w] & Hin & Hm). eauto.
  - unfold unit_result, add_constant in H. simpl in H. destruct (existsb _ _) eqn:Ee; [|discriminate].
    apply existsb_exists in Ee. destruct Ee as ([m w] & Hin & Hm). eauto.
  - simpl. intros Hn. unfold unit_result, add_function_as, register in H. simpl in H. rewrite Hn in H. simpl in H.
    pose proof (insert_aliases_cases E (fn_aliases f) f (d_funs d)) as C.
    destruct (insert_aliases E (fn_aliases f) f (d_funs d)) as [[u|k'|] m]; simpl in H; try discriminate. destruct C; discriminate.
  - simpl. intros Hn. unfold unit_result, add_unary_function_as, register in H. simpl in H. rewrite Hn in H. simpl in H.
    pose proof (insert_aliases_cases E (uf_aliases f) f (d_unary d)) as C.
    destruct (insert_aliases E (uf_aliases f) f (d_unary d)) as [[u|k'|] m]; simpl in H; try discriminate. destruct C; discriminate.
  - simpl. intros Hn. unfold unit_result, add_binary_function_as, register in H. simpl in H. rewrite Hn in H. simpl in H.
    pose proof (insert_aliases_cases E (bf_aliases f) f (d_binary d)) as C.
    destruct (insert_aliases E (bf_aliases f) f (d_binary d)) as [[u|k'|] m]; simpl in H; try discriminate. destruct C; discriminate.
Qed.
Print Assumptions C40_release_accepts.

Example C40_case : ~ valid_name (lit "a b") /\ valid_name (lit "a_b") /\
  fst (set_variable (W := unit) std_env true (lit "a b") 1%Z (with_config config_new)) = Err InvalidInput /\
  fst (set_variable (W := unit) std_env true (lit "  ") 1%Z (with_config config_new)) = Err Empty /\
  fst (set_variable (W := unit) std_env false (lit "a b") 1%Z (with_config config_new)) = Ok None.
Proof.
  split; [intros H; apply check_name in H; discriminate|]. split; [apply check_name; reflexivity|]. vm_compute. repeat split; reflexivity.
Qed.

(** ** C42 *)

(** Evaluation depends on the context only through the entries of the names that occur. *)
Theorem C42_depends_on_names_used : forall V W (c c' : ctx V W) (dbg : bool) toks toks' (w : W),
  cfg c = cfg c' -> (implicit_mul (cfg c) = true -> get_binary c times = get_binary c' times) ->
  Forall2 (alike c c') toks toks' -> eval_tokens c dbg toks w = eval_tokens c' dbg toks' w.
Proof. exact (fun V W c c' dbg toks toks' w H1 H2 => @eval_like V W c c' dbg H1 H2 toks toks' w). Qed.
Print Assumptions C42_depends_on_names_used.

(** Setting a variable does not change the value of an expression without it. *)
Theorem C42_other_variable : forall V W (E : env) (dbg : bool) n v (d : dctx V W) r d' toks (w : W),
  set_variable E dbg n v d = (r, d') -> ~ In (TVariable n) toks ->
  eval_tokens (to_ctx E d') dbg toks w = eval_tokens (to_ctx E d) dbg toks w.
Proof. exact (fun V W E dbg => @eval_set_other V W E dbg). Qed.
Print Assumptions C42_other_variable.

(** Registering a function or operator does not change the value of an expression whose names are all defined. *)
Theorem C42_registering_is_conservative : forall V W (E : env) (dbg : bool) (x : call V W) d o d' toks (w : W),
  perform E dbg x d = (Ok o, d') -> match x with SetVariable _ _ | AddConstant _ _ => False | _ => True end ->
  Forall (meaningful (to_ctx E d)) toks -> (implicit_mul (d_config d) = true -> get_binary (to_ctx E d) times <> None) ->
  eval_tokens (to_ctx E d') dbg toks w = eval_tokens (to_ctx E d) dbg toks w.
Proof. exact (fun V W E dbg x d o d' toks w H Hx => @eval_after_register V W E dbg x d o d' toks w H
  (match x return (match x with SetVariable _ _ | AddConstant _ _ => False | _ => True end) -> only_registers x = true with
   | SetVariable _ _ | AddConstant _ _ => fun F => match F with end | _ => fun _ => eq_refl end Hx)). Qed.
Print Assumptions C42_registering_is_conservative.

(** [meaningful] is met by every sequence that evaluates to a value (C08). *)
Example C42_case : Forall (meaningful (std_ctx plain_config)) [TNumber 2%Z; TBinary (lit "+"); TConstant (lit "pi")].
Proof.
  assert (S : forall A (o : option A), is_some o = true -> exists v, o = Some v) by (intros A [v|] H; [eauto|discriminate]).
  apply Forall_cons; [exact I|]. apply Forall_cons; [cbn [meaningful]; apply S; vm_compute; reflexivity|].
  apply Forall_cons; [cbn [meaningful]; apply S; vm_compute; reflexivity|]. apply Forall_nil.
Qed.
