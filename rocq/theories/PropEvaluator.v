(** * The properties of [infix_to_rpn] and [Evaluator::eval_tokens] (C01-C09, C41, C42)

    Statements only: every theorem is closed by a lemma of the Proof files. The vocabulary is that of SpecExpr (trees,
    their tokens, postfix form and meaning, the reading rules), SpecGrammar, SpecTokens, SpecRun and SpecChain. The
    examples use the model of [DefaultContext::<i64>::new_checked()] (ModelStd). *)
From Coq Require Import List NArith ZArith Bool Arith Lia Permutation String.
From Verif Require Import ModelBase ModelContext ModelEvaluator ModelText ModelDefault ModelNum ModelOps ModelStd
  SpecExpr SpecGrammar SpecTokens SpecRun SpecChain
  ProofYard ProofRpn ProofGrammar ProofUnique ProofTokens ProofTokens2 ProofTokens3 ProofRun ProofWf ProofEvalMore.
Import ListNotations.

(** Tokens and trees of the examples. *)
Definition num (z : Z) : token Z := TNumber z.
Definition op (s : string) : token Z := TBinary (lit s).
Definition un (s : string) : token Z := TUnary (lit s).
Definition fun_tok (s : string) : token Z := TFunction (lit s).
Definition lp : token Z := TOpen 40%N.
Definition rp : token Z := TClose 41%N.
Definition bin (s : string) (l r : expr Z) : expr Z := EBin (lit s) l r.
Definition n_ (z : Z) : expr Z := ENum z.
Definition par (e : expr Z) : expr Z := EGroup Parenthesis e.
Definition call (s : string) (args : list (expr Z)) : expr Z := ECall (lit s) Parenthesis args.
Definition run (cf : config) (toks : list (token Z)) : res Z := fst (eval_tokens (std_ctx cf) true toks tt).

(** ** C01 *)

(** [infix_to_rpn] puts the tokens of a tree that respects the precedence rules in postfix order. *)
Theorem C01_infix_to_rpn : forall V W (c : ctx V W) (dbg : bool) (e : expr V),
  wf c e -> infix_to_rpn c dbg (print e) = Ok (postfix e).
Proof. exact (fun V W c dbg => @infix_to_rpn_print V W c dbg). Qed.
Print Assumptions C01_infix_to_rpn.

(** [eval_tokens] gives its tokens the meaning of the tree: same result, same effects. *)
Theorem C01_eval_tokens : forall V W (c : ctx V W) (dbg : bool) (e : expr V) (w : W),
  wf c e -> eval_tokens c dbg (print e) w = denote c e w.
Proof. exact (fun V W c dbg => @eval_tokens_print V W c dbg). Qed.
Print Assumptions C01_eval_tokens.

(** Two operators: [a o1 b o2 d] is [(a o1 b) o2 d] if [o1] binds tighter, or as tight and is left-associative, and
    [a o1 (b o2 d)] otherwise. *)
Theorem C01_two_operators : forall V W (c : ctx V W) (dbg : bool) a o1 b o2 d (w : W),
  wf c a -> wf c b -> wf c d -> is_primary a = true -> is_primary b = true -> is_primary d = true ->
  get_binary c o1 <> None -> get_binary c o2 <> None ->
  (groups_left c o1 o2 ->
     eval_tokens c dbg (print a ++ [TBinary o1] ++ print b ++ [TBinary o2] ++ print d) w
     = denote c (EBin o2 (EBin o1 a b) d) w) /\
  (~ groups_left c o1 o2 ->
     eval_tokens c dbg (print a ++ [TBinary o1] ++ print b ++ [TBinary o2] ++ print d) w
     = denote c (EBin o1 a (EBin o2 b d)) w).
Proof. exact (fun V W c dbg => @two_operators V W c dbg). Qed.
Print Assumptions C01_two_operators.

(** Chains of operators of one precedence, of any length: to the left if left-associative... *)
Theorem C01_left_chain : forall V W (c : ctx V W) (dbg : bool) (p : N) a rest (w : W),
  wf c a -> is_primary a = true ->
  Forall (fun '(o, e) => op_like c p LeftA o /\ wf c e /\ is_primary e = true) rest ->
  eval_tokens c dbg (print a ++ chain rest) w = denote c (left_tree a rest) w.
Proof. exact (fun V W c dbg => @left_chain V W c dbg). Qed.
Print Assumptions C01_left_chain.

(** ... and to the right if right-associative. *)
Theorem C01_right_chain : forall V W (c : ctx V W) (dbg : bool) (p : N) a rest (w : W),
  wf c a -> is_primary a = true ->
  Forall (fun '(o, e) => op_like c p RightA o /\ wf c e /\ is_primary e = true) rest ->
  eval_tokens c dbg (print a ++ chain rest) w = denote c (right_tree a rest) w.
Proof. exact (fun V W c dbg => @right_chain V W c dbg). Qed.
Print Assumptions C01_right_chain.

(** 2 + 3 * (4 - 1)! - sum(1, -2 * 3, max(1, 2)) *)
Definition C01_tree : expr Z :=
  bin "-" (bin "+" (n_ 2) (bin "*" (n_ 3) (EPost (par (bin "-" (n_ 4) (n_ 1))) (lit "!"))))
          (call "sum" [n_ 1; bin "*" (EPre (lit "-") (n_ 2)) (n_ 3); call "max" [n_ 1; n_ 2]]).
Example C01_tree_reads : wf (std_ctx plain_config) C01_tree /\ run plain_config (print C01_tree) = Ok 23%Z.
Proof. split; [apply wfb_sound|]; vm_compute; reflexivity. Qed.
Example C01_minus_chain :
  Forall (fun '(o, e) => op_like (std_ctx plain_config) 1 LeftA o /\ wf (std_ctx plain_config) e /\ is_primary e = true)
    [(lit "-", n_ 2); (lit "+", n_ 3); (lit "-", par (n_ 4))] /\
  run plain_config (print (n_ 10) ++ chain [(lit "-", n_ 2); (lit "+", n_ 3); (lit "-", par (n_ 4))]) = Ok 7%Z.
Proof.
  split; [|vm_compute; reflexivity].
  apply chain_ok_sound. vm_compute. reflexivity.
Qed.
Example C01_two_operators_met :
  groups_left (std_ctx plain_config) (lit "*") (lit "+") /\ groups_left (std_ctx plain_config) (lit "-") (lit "-") /\
  ~ groups_left (std_ctx plain_config) (lit "+") (lit "*") /\ ~ groups_left (std_ctx plain_config) (lit "^") (lit "^").
Proof.
  rewrite <- !groups_leftb_spec. vm_compute. repeat split; congruence.
Qed.
Example C01_power_chain :
  Forall (fun '(o, e) => op_like (std_ctx plain_config) 3 RightA o /\ wf (std_ctx plain_config) e /\ is_primary e = true)
    [(lit "^", n_ 3); (lit "^", n_ 2)].
Proof. apply chain_ok_sound. vm_compute. reflexivity. Qed.

(** ** C02 *)

(** Before an atom, a prefix operator takes exactly the atom, whatever operator follows. *)
Theorem C02_prefix_on_atom : forall V W (c : ctx V W) (dbg : bool) u a o r (w : W),
  is_atom a = true -> has_notation c u Prefix -> wf c r ->
  get_binary c o <> None -> (forall o', In o' (left_ops r) -> ~ groups_left c o o') ->
  eval_tokens c dbg ([TUnary u] ++ print a ++ [TBinary o] ++ print r) w = denote c (EBin o (EPre u a) r) w.
Proof. exact (fun V W c dbg => @prefix_on_atom V W c dbg). Qed.
Print Assumptions C02_prefix_on_atom.

(** Before anything else it takes the whole rest. *)
Theorem C02_prefix_takes_rest : forall V W (c : ctx V W) (dbg : bool) u e (w : W),
  wf c e -> has_notation c u Prefix -> starts_with_atom e = false ->
  eval_tokens c dbg ([TUnary u] ++ print e) w = bind (denote c e) (apply_unary c u) w.
Proof. exact (fun V W c dbg => @prefix_takes_rest V W c dbg). Qed.
Print Assumptions C02_prefix_takes_rest.

(** The usual rule, that [- x o r] is [(- x) o r] for every primary [x], is false: [-(3) - 2] is -1. *)
Theorem C02_usual_prefix_rule_refuted : exists (c : ctx Z unit) u x o r,
  wf c x /\ wf c r /\ is_primary x = true /\ has_notation c u Prefix /\ get_binary c o <> None /\
  left_ops r = [] /\ denote c (EBin o (EPre u x) r) tt = (Ok (-5)%Z, tt) /\
  eval_tokens c true ([TUnary u] ++ print x ++ [TBinary o] ++ print r) tt = (Ok (-1)%Z, tt).
Proof.
  exists (std_ctx plain_config), (lit "-"), (par (n_ 3)), (lit "-"), (n_ 2).
  split; [apply wfb_sound; vm_compute; reflexivity|]. split; [apply wfb_sound; vm_compute; reflexivity|].
  split; [reflexivity|]. split; [apply has_notationb_sound; vm_compute; reflexivity|].
  split; [apply is_binary_sound; vm_compute; reflexivity|]. split; [reflexivity|]. split; vm_compute; reflexivity.
Qed.
Print Assumptions C02_usual_prefix_rule_refuted.

Example C02_on_atom : run plain_config [un "-"; num 7; op "-"; num 2] = Ok (-9)%Z
  /\ has_notation (std_ctx plain_config) (lit "-") Prefix.
Proof. split; [vm_compute; reflexivity|]. apply has_notationb_sound. vm_compute. reflexivity. Qed.
Example C02_rest : wf (std_ctx plain_config) (bin "+" (call "max" [n_ 1; n_ 2]) (n_ 3)) /\
  run plain_config ([un "-"] ++ print (bin "+" (call "max" [n_ 1; n_ 2]) (n_ 3))) = Ok (-5)%Z.
Proof. split; [apply wfb_sound|]; vm_compute; reflexivity. Qed.

(** ** C03 *)

(** Every sequence of the grammar is the text of exactly one tree that respects the rules; it is converted to the
    tree's postfix order and evaluated to its meaning. *)
Theorem C03_unique_reading : forall V W (c : ctx V W) (dbg : bool) (q : list (token V)), g_expr c q ->
  exists e, wf c e /\ print e = q /\ (forall e', wf c e' -> print e' = q -> e' = e) /\
  infix_to_rpn c dbg q = Ok (postfix e) /\ (forall w, eval_tokens c dbg q w = denote c e w).
Proof. exact (fun V W c dbg => @grammar_reading V W c dbg). Qed.
Print Assumptions C03_unique_reading.

(** Conversely the text of every such tree is grammatical, so C01 and C03 are about the same sequences. *)
Theorem C03_trees_are_grammatical : forall V W (c : ctx V W) (e : expr V), wf c e -> g_expr c (print e).
Proof. exact (fun V W c e H => proj1 (@grammatical V W c _ e (le_n _) H)). Qed.
Print Assumptions C03_trees_are_grammatical.

Example C03_sequence : g_expr (std_ctx plain_config) [num 2; op "*"; un "-"; lp; num 3; op "-"; num 1; rp].
Proof. apply (C03_trees_are_grammatical _ _ (std_ctx plain_config)
  (bin "*" (n_ 2) (EPre (lit "-") (par (bin "-" (n_ 3) (n_ 1)))))). apply wfb_sound. vm_compute. reflexivity. Qed.

(** ** C04 *)

(** The implied [*] binds to the operand on its left tighter than the operator before it, whichever that is... *)
Theorem C04_implied_mul_binds_tighter : forall V W (c : ctx V W) (dbg : bool) l o a r (w : W),
  implicit_mul (cfg c) = true -> wf c l -> wf c a -> wf c r ->
  get_binary c o <> None -> ends_in_prefix l = false -> (forall o', In o' (right_ops l) -> groups_left c o' o) ->
  juxtaposed a r = true -> (forall o', In o' (left_ops r) -> ~ groups_left c times o') ->
  eval_tokens c dbg (print l ++ [TBinary o] ++ print a ++ print r) w = denote c (EBin o l (EMul a r)) w.
Proof. exact (fun V W c dbg => @implied_mul_after V W c dbg). Qed.
Print Assumptions C04_implied_mul_binds_tighter.

(** ... and groups to the right. *)
Theorem C04_implied_mul_groups_right : forall V W (c : ctx V W) (dbg : bool) a b r (w : W),
  implicit_mul (cfg c) = true -> wf c a -> wf c b -> wf c r ->
  juxtaposed a b = true -> juxtaposed b r = true -> (forall o', In o' (left_ops r) -> ~ groups_left c times o') ->
  eval_tokens c dbg (print a ++ print b ++ print r) w = denote c (EMul a (EMul b r)) w.
Proof. exact (fun V W c dbg => @implied_mul_chain V W c dbg). Qed.
Print Assumptions C04_implied_mul_groups_right.

(** One [*] is inserted for each juxtaposition that multiplies if the feature is enabled, and none otherwise: on any
    token sequence whatever, the operations of the postfix form are those written plus these. *)
Theorem C04_number_of_implied_muls : forall V W (c : ctx V W) (dbg : bool) toks rpn,
  infix_to_rpn c dbg toks = Ok rpn ->
  Permutation (operations rpn)
    (operations toks ++ repeat (TBinary times) (if implicit_mul (cfg c) then juxtapositions toks else 0)).
Proof. exact (fun V W c dbg toks rpn H => proj1 (proj2 (@infix_conserved V W c dbg toks rpn H))). Qed.
Print Assumptions C04_number_of_implied_muls.

(** That it behaves like a written [*] is false: [6 / 2 (3)] is 1 and [6 / 2 * (3)] is 9. *)
Theorem C04_like_written_mul_refuted : exists (c : ctx Z unit) l o a r,
  implicit_mul (cfg c) = true /\ juxtaposed a r = true /\
  eval_tokens c true (print l ++ [TBinary o] ++ print a ++ print r) tt = (Ok 1%Z, tt) /\
  eval_tokens c true (print l ++ [TBinary o] ++ print a ++ [TBinary times] ++ print r) tt = (Ok 9%Z, tt).
Proof.
  exists (std_ctx implicit_config), (n_ 6), (lit "/"), (n_ 2), (par (n_ 3)). vm_compute. repeat split; reflexivity.
Qed.
Print Assumptions C04_like_written_mul_refuted.

Example C04_case : wf (std_ctx implicit_config) (bin "/" (n_ 24) (EMul (n_ 2) (EMul (par (n_ 3)) (par (n_ 4))))) /\
  run implicit_config [num 24; op "/"; num 2; lp; num 3; rp; lp; num 4; rp] = Ok 1%Z /\
  run plain_config [num 24; op "/"; num 2; lp; num 3; rp] = Err InvalidExpression.
Proof. split; [apply wfb_sound|split]; vm_compute; reflexivity. Qed.

(** ** C05 *)

(** A call passes the values of its written arguments, in order, once, after evaluating them from left to right. *)
Theorem C05_call_gets_its_arguments : forall V W (c : ctx V W) (dbg : bool) f g args fn vs (w w1 : W),
  wf c (ECall f g args) -> get_function c f = Some fn -> runs_all c args w (Ok vs) w1 ->
  eval_tokens c dbg (print (ECall f g args)) w = fn_call fn vs w1.
Proof. exact (fun V W c dbg => @call_args V W c dbg). Qed.
Print Assumptions C05_call_gets_its_arguments.

(** Inside any tree too: evaluation calls what the step-by-step semantics (SpecRun, R_call) calls. This is C09_steps.
    A call without arguments is right when it is the whole expression... *)
Theorem C05_empty_call_alone : forall V W (c : ctx V W) (dbg : bool) f g fn (w : W),
  (custom_function_call (cfg c) = false -> g = Parenthesis) -> get_function c f = Some fn ->
  eval_tokens c dbg [TFunction f; TOpen (grouping_open g); TClose (grouping_close g)] w = fn_call fn [] w.
Proof. exact (fun V W c dbg => @empty_call_alone V W c dbg). Qed.
Print Assumptions C05_empty_call_alone.

(** ... and wrong elsewhere: it takes the value to its left. [5 + random()] fails although [random()] alone is 0 (with this random source) and [5 + 0]
    is 5. *)
Theorem C05_empty_call_refuted : exists (c : ctx Z unit) f o x v,
  get_binary c o <> None /\
  eval_tokens c true [TFunction f; TOpen 40%N; TClose 41%N] tt = (Ok v, tt) /\
  fst (eval_tokens c true [TNumber x; TBinary o; TNumber v] tt) = Ok (x + v)%Z /\
  eval_tokens c true [TNumber x; TBinary o; TFunction f; TOpen 40%N; TClose 41%N] tt = (Err InvalidExpression, tt).
Proof.
  exists (std_ctx plain_config), (lit "random"), (lit "+"), 5%Z, 0%Z. split; [apply is_binary_sound; vm_compute; reflexivity|]. vm_compute. repeat split; reflexivity.
Qed.
Print Assumptions C05_empty_call_refuted.

Example C05_case : wf (std_ctx plain_config) (call "max" [n_ 3; bin "+" (n_ 2) (n_ 5); call "sum" [n_ 1; n_ 2]]) /\
  runs_all (std_ctx plain_config) [n_ 3; bin "+" (n_ 2) (n_ 5); call "sum" [n_ 1; n_ 2]] tt (Ok [3; 7; 3]%Z) tt.
Proof.
  split; [apply wfb_sound; vm_compute; reflexivity|].
  repeat (eapply RA_cons; [apply runs_iff_denote; vm_compute; reflexivity|]). constructor.
Qed.

(** ** C06 *)

(** On any token sequence: success implies proper nesting of matching symbols. *)
Theorem C06_balanced : forall V W (c : ctx V W) (dbg : bool) toks (w : W) v w',
  eval_tokens c dbg toks w = (Ok v, w') -> balanced toks.
Proof. exact (fun V W c dbg toks w v w' H => proj1 (@eval_ok_balanced V W c dbg toks w v w' H)). Qed.
Print Assumptions C06_balanced.

Example C06_case : run plain_config [lp; num 2; op "+"; TOpen 91%N; num 3; TClose 93%N; rp] = Ok 5%Z /\
  run plain_config [lp; num 2; TClose 93%N] = Err InvalidExpression /\ run plain_config [lp; num 2] = Err InvalidInput.
Proof. vm_compute. repeat split; reflexivity. Qed.

(** [infix_to_rpn] alone does not check it: an open symbol that is never closed ends up in its output. *)
Theorem C06_infix_alone_refuted : exists (c : ctx Z unit) toks rpn,
  infix_to_rpn c true toks = Ok rpn /\ ~ balanced toks /\ In (TOpen 40%N) rpn.
Proof.
  exists (std_ctx plain_config), [lp; num 2], [num 2; lp]. split; [vm_compute; reflexivity|]. split; [|right; left; reflexivity].
  intros H. assert (G : forall q : list (token Z), balanced q ->
    count is_grouping_open q = count is_grouping_close q).
  { intros q B. unfold count. induction B as [|t Ht|a b Ba IHa Bb IHb|o g q Hg B IH]; auto.
    - destruct t; try discriminate Ht; reflexivity.
    - rewrite !filter_app, !app_length. congruence.
    - simpl. rewrite !filter_app, !app_length. simpl. rewrite IH. lia. }
  specialize (G _ H). vm_compute in G. discriminate.
Qed.
Print Assumptions C06_infix_alone_refuted.

(** ** C07 *)

Theorem C07_infix_to_rpn_no_panic : forall V W (c : ctx V W) (dbg : bool) toks, infix_to_rpn c dbg toks <> Panic.
Proof. exact (fun V W c dbg => @infix_no_panic V W c dbg). Qed.
Print Assumptions C07_infix_to_rpn_no_panic.

(** [eval_tokens] panics only if a function or operator it names (or the implied [*]) does. *)
Theorem C07_eval_tokens_no_panic : forall V W (c : ctx V W) (dbg : bool) toks,
  Forall (calls_safely c) toks -> (implicit_mul (cfg c) = true -> calls_safely c (TBinary times)) ->
  forall w, fst (eval_tokens c dbg toks w) <> Panic.
Proof. exact (fun V W c dbg => @eval_no_panic V W c dbg). Qed.
Print Assumptions C07_eval_tokens_no_panic.

(** Debug and release builds agree on every token sequence (the debug assertions never fail). *)
Theorem C07_debug_is_release : forall V W (c : ctx V W) toks (w : W),
  infix_to_rpn c true toks = infix_to_rpn c false toks /\ eval_tokens c true toks w = eval_tokens c false toks w.
Proof. exact (fun V W c toks w => conj (@infix_dbg V W c toks) (@eval_dbg V W c toks w)). Qed.
Print Assumptions C07_debug_is_release.

(** A small context whose functions do not panic, and a sequence that makes no sense. *)
Definition C07_ctx : ctx Z unit := Ctx (Config true false true []) (fun _ => Some 1%Z) (fun _ => None)
  (fun _ => Some (Func [] [] (fun args => ret (fold_right Z.add 0 args)%Z)))
  (fun _ => Some (UFunc [] [] Prefix (fun x => ret (- x)%Z)))
  (fun _ => Some (BFunc [] [] 2 LeftA (fun x y => ret (x * y)%Z))).
Example C07_case : let toks := [num 2; lp; op "+"; TComma; fun_tok "f"; lp; TArgCount 3; rp; un "-"; rp] in
  Forall (calls_safely C07_ctx) toks /\ calls_safely C07_ctx (TBinary times).
Proof.
  assert (H : forall t, calls_safely C07_ctx t) by (intros []; simpl; auto; intros; injection H as <-; discriminate).
  split; [|apply H]. apply Forall_forall. intros t _. apply H.
Qed.

(** ** C08 *)

(** Success on any token sequence implies that every name in it is known and that it has no [Unknown] or [ArgCount]
    token; that every comma is directly inside the group of a function call; and that operands and operators balance. *)
Theorem C08_accepted_is_meaningful : forall V W (c : ctx V W) (dbg : bool) toks (w : W) v w',
  eval_tokens c dbg toks w = (Ok v, w') ->
  Forall (meaningful c) toks /\
  (forall before after, toks = before ++ TComma :: after -> comma_in_call before) /\
  let stars := if implicit_mul (cfg c) then juxtapositions toks else 0 in
  count atom_token toks <= 1 + count is_binary_token toks + stars + count is_comma_token toks /\
  (count is_function toks = 0 -> count atom_token toks = 1 + count is_binary_token toks + stars).
Proof. exact (fun V W c dbg toks w v w' H => conj (@eval_meaningful V W c dbg toks w v w' H)
  (conj (proj2 (@eval_ok_balanced V W c dbg toks w v w' H)) (@eval_counts V W c dbg toks w v w' H))). Qed.
Print Assumptions C08_accepted_is_meaningful.

(** That only grammatical sequences are accepted is false: [2 3 +] is 5 (no grammatical sequence ends in a binary
    operator), and so are [(2 3 +)], [2 3 + * 4] = 14 and [sum(1 2, +)] = 3. *)
Theorem C08_only_grammatical_refuted : exists (c : ctx Z unit) toks v,
  ~ g_expr c toks /\ eval_tokens c true toks tt = (Ok v, tt).
Proof.
  exists (std_ctx plain_config), [num 2; num 3; op "+"], 5%Z. split; [|vm_compute; reflexivity].
  intros H. destruct (C03_unique_reading _ _ _ true _ H) as (e & _ & Hp & _).
  assert (G : forall e : expr Z, exists pre t, print e = pre ++ [t] /\ is_binary_token t = false).
  { clear. induction e as [v|x|x|g e IH|f g args IH|u e IH|e u IH|o l r IHl IHr|l r IHl IHr] using expr_ind'; cbn [print].
    - exists [], (TNumber v). split; reflexivity.
    - exists [], (TVariable x). split; reflexivity.
    - exists [], (TConstant x). split; reflexivity.
    - exists ([TOpen (grouping_open g)] ++ print e), (TClose (grouping_close g)). rewrite <- app_assoc. split; reflexivity.
    - eexists (_ ++ _), (TClose (grouping_close g)). rewrite <- app_assoc. split; reflexivity.
    - destruct IH as (pre & t & E & Ht). exists ([TUnary u] ++ pre), t. rewrite E, app_assoc. auto.
    - exists (print e), (TUnary u). split; reflexivity.
    - destruct IHr as (pre & t & E & Ht). exists (print l ++ [TBinary o] ++ pre), t. rewrite E, <- !app_assoc. auto.
    - destruct IHr as (pre & t & E & Ht). exists (print l ++ pre), t. rewrite E, <- app_assoc. auto. }
  destruct (G e) as (pre & t & E & Ht). rewrite Hp in E.
  change [num 2; num 3; op "+"] with ([num 2; num 3] ++ [op "+"]) in E. apply app_inj_tail in E. destruct E as [_ <-].
  discriminate Ht.
Qed.
Print Assumptions C08_only_grammatical_refuted.

Example C08_case : run plain_config (print C01_tree) = Ok 23%Z /\
  run plain_config [lp; num 2; num 3; op "+"; rp] = Ok 5%Z /\ run plain_config [num 2; num 3; op "+"; op "*"; num 4] = Ok 14%Z.
Proof. vm_compute. repeat split; reflexivity. Qed.

(** ** C09 *)

(** On grammatical sequences [eval_tokens] returns exactly the result and the final state of the step-by-step semantics
    of SpecRun: operands from left to right before their operation; the first failure is the result; nothing runs
    after it. *)
Theorem C09_steps : forall V W (c : ctx V W) (dbg : bool) (q : list (token V)), g_expr c q ->
  exists e, print e = q /\ (forall e', wf c e' -> print e' = q -> e' = e) /\
  forall (w : W) r w', eval_tokens c dbg q w = (r, w') <-> runs c e w r w'.
Proof.
  exact (fun V W c dbg q Hq => match @grammar_reading V W c dbg q Hq with
    | ex_intro _ e (conj _ (conj Hp (conj Hu (conj _ He)))) =>
        ex_intro _ e (conj Hp (conj Hu (fun w r w' =>
          eq_ind_r (fun x => x = (r, w') <-> runs c e w r w') (iff_sym (@runs_iff_denote V W c e w r w')) (He w))))
    end).
Qed.
Print Assumptions C09_steps.

(** [2 / 0 + (1 + max())]-like failures: the division fails first, so the missing variable is never reached. *)
Example C09_case :
  let e := bin "+" (bin "/" (n_ 2) (n_ 0)) (EVar (lit "x")) in
  g_expr (std_ctx plain_config) (print e) /\ run plain_config (print e) = Err DivisionByZero /\
  run plain_config (print (bin "+" (EVar (lit "x")) (bin "/" (n_ 2) (n_ 0)))) = Err InvalidInput.
Proof.
  cbv zeta. split; [apply C03_trees_are_grammatical, wfb_sound; vm_compute; reflexivity|]. split; vm_compute; reflexivity.
Qed.

(** ** C41 *)

(** On any token sequence whatever, conversion loses no operand and no operation, adds none but the implied [*]s, keeps
    the operands in order, and refuses sequences that use an operator that is not registered. *)
Theorem C41_conversion_conserves : forall V W (c : ctx V W) (dbg : bool) toks rpn,
  infix_to_rpn c dbg toks = Ok rpn ->
  operands rpn = operands toks /\
  Permutation (operations rpn)
    (operations toks ++ repeat (TBinary times) (if implicit_mul (cfg c) then juxtapositions toks else 0)) /\
  Forall (fun t => match t with
                   | TBinary o => get_binary c o <> None | TUnary u => get_unary c u <> None
                   | TArgCount _ | TUnknown _ => False | _ => True end) toks.
Proof. exact (fun V W c dbg => @infix_conserved V W c dbg). Qed.
Print Assumptions C41_conversion_conserves.

Example C41_case : infix_to_rpn (std_ctx implicit_config) true [num 2; lp; num 3; op "-"; num 4; rp; un "!"]
  = Ok [num 2; num 3; num 4; op "-"; un "!"; op "*"].
Proof. vm_compute. reflexivity. Qed.
