(** * C80: a context built by a user (examples/logical_ops.rs) *)
From Coq Require Import List NArith ZArith Bool Arith Lia String.
From Verif Require Import ModelBase ModelContext ModelEvaluator ModelText ModelDefault ModelNum ModelOps ModelSplit ModelTokenizer ModelParse ModelStd ModelExample
  SpecExpr SpecText SpecOps SpecLex SpecParse SpecTokenizer ProofText ProofDefault ProofBuild ProofCtx ProofRpn ProofParse ProofLex ProofIntText PropLex.
Import ListNotations.

(** Formulas as lists of words, by the usual kind of grammar: [or] binds tightest, then [xor], then [and]; all of them to the left.
    [value] says what single words are worth. *)
Section Formulas.
Context {V : Type}.
Variables (value : str -> V -> Prop) (op_and op_or op_xor : V -> V -> V).
Inductive atomic : list str -> V -> Prop :=
| F_word : forall s v, value s v -> atomic [s] v
| F_group : forall ws v, formula ws v -> atomic (lit "(" :: ws ++ [lit ")"]) v
with disjunction : list str -> V -> Prop :=
| F_atom : forall ws v, atomic ws v -> disjunction ws v
| F_or : forall l r x y, disjunction l x -> atomic r y -> disjunction (l ++ lit "or" :: r) (op_or x y)
with exclusion : list str -> V -> Prop :=
| F_disjunction : forall ws v, disjunction ws v -> exclusion ws v
| F_xor : forall l r x y, exclusion l x -> disjunction r y -> exclusion (l ++ lit "xor" :: r) (op_xor x y)
with formula : list str -> V -> Prop :=
| F_exclusion : forall ws v, exclusion ws v -> formula ws v
| F_and : forall l r x y, formula l x -> exclusion r y -> formula (l ++ lit "and" :: r) (op_and x y).
End Formulas.
Scheme atomic_mind := Induction for atomic Sort Prop
with disjunction_mind := Induction for disjunction Sort Prop
with exclusion_mind := Induction for exclusion Sort Prop
with formula_mind := Induction for formula Sort Prop.
Combined Scheme formulas_mind from atomic_mind, disjunction_mind, exclusion_mind, formula_mind.

Section Proof.
Context {V W : Type}.
Variables (op_and op_or op_xor : V -> V -> V) (E : env) (dbg : bool) (yes no : V) (d : dctx V W).
Hypothesis Hd : logic_context op_and op_or op_xor E dbg yes no = Ok d.
Variable parse : str -> option V.
(** What is asked of the number type: the operators and brackets are not numbers. *)
Hypothesis not_numbers : forall s, In s (map lit ["and"; "or"; "xor"; "("; ")"]%string) -> parse s = None.
Notation c := (to_ctx E d).
Definition the_logic : dctx V W := DCtx [] [(lit "true", yes); (lit "false", no)] [] []
  (map (fun f => (bf_name f, f)) [AndOperator op_and; OrOperator op_or; XorOperator op_xor]) config_new.
Lemma logic_is : d = the_logic.
Proof.
  pose (l := [SConst (lit "true") yes; SConst (lit "false") no; SBin (AndOperator op_and); SBin (OrOperator op_or); SBin (XorOperator op_xor)] : list (step V W)).
  assert (X : logic_context op_and op_or op_xor E dbg yes no = build (map (perf E dbg) l) (with_config config_new)) by reflexivity.
  rewrite X, build_ctx in Hd by (clear; vm_compute; reflexivity). injection Hd as <-. reflexivity.
Qed.
Lemma the_bin : forall i (f : bfunc V W) q, nth_error [AndOperator op_and; OrOperator op_or; XorOperator op_xor] i = Some f -> ascii_alike q (bf_name f) -> get_binary c q = Some f.
Proof.
  intros i f q Hi Hq. rewrite logic_is. cbn [to_ctx get_binary the_logic d_binary]. eapply mget_nth; [clear; vm_compute; reflexivity| |exact Hq]. erewrite map_nth_error by exact Hi. reflexivity.
Qed.
Lemma and_is : get_binary c (lit "and") = Some (AndOperator op_and). Proof. apply (the_bin 0); [reflexivity|apply alike_refl]. Qed.
Lemma or_is : get_binary c (lit "or") = Some (OrOperator op_or). Proof. apply (the_bin 1); [reflexivity|apply alike_refl]. Qed.
Lemma xor_is : get_binary c (lit "xor") = Some (XorOperator op_xor). Proof. apply (the_bin 2); [reflexivity|apply alike_refl]. Qed.
Lemma no_unary : forall s, get_unary c s = None. Proof. rewrite logic_is. reflexivity. Qed.
Lemma word_only : forall s, In s (map lit ["and"; "or"; "xor"; "("; ")"]%string) -> operator_only c parse s.
Proof.
  intros s Hs. split; [apply not_numbers; exact Hs|]. rewrite logic_is. unfold variable, constant, function. cbn [to_ctx get_variable get_constant get_function the_logic d_vars d_consts d_funs].
  assert (A : mget (key_match E) [(lit "true", yes); (lit "false", no)] s = None).
  { apply mget_none. cbn [map In] in Hs. repeat constructor; cbn [fst]; destruct Hs as [<-|[<-|[<-|[<-|[<-|[]]]]]]; rewrite km_low by reflexivity; reflexivity. }
  rewrite A. unfold mget. cbn. tauto.
Qed.
Lemma bracket_nameless : forall s, In s [lit "("; lit ")"] -> nameless c parse s.
Proof.
  intros s Hs. split; [apply word_only; cbn in *; tauto|]. unfold unary, binary. rewrite no_unary. split; [tauto|]. rewrite logic_is. cbn [to_ctx get_binary the_logic d_binary].
  intros X. apply X. apply mget_none. repeat constructor; cbn [fst bf_name AndOperator OrOperator XorOperator binop]; destruct Hs as [<-|[<-|[]]]; rewrite km_low by reflexivity; reflexivity.
Qed.
(** A word of worth: a number, or a constant that is not a number. *)
Definition worth (s : str) (v : V) : Prop := parse s = Some v \/ (parse s = None /\ ((s = lit "true" /\ v = yes) \/ (s = lit "false" /\ v = no))).
Lemma const_is : get_constant c (lit "true") = Some yes /\ get_constant c (lit "false") = Some no.
Proof.
  rewrite logic_is. cbn [to_ctx get_constant the_logic d_consts]. split.
  - apply (mget_nth E _ [(lit "true", yes); (lit "false", no)] 0 (lit "true") yes (lit "true")); [reflexivity|reflexivity|apply alike_refl].
  - apply (mget_nth E _ [(lit "true", yes); (lit "false", no)] 1 (lit "false") no (lit "false")); [reflexivity|reflexivity|apply alike_refl].
Qed.
Definition ops (n : nat) : list str := skipn n (map lit ["and"; "xor"; "or"]%string).
Definition level (o : str) : nat := if str_eqb o (lit "and") then 0 else if str_eqb o (lit "xor") then 1 else 2.
Lemma the_op : forall o, In o (ops 0) -> exists f, get_binary c o = Some f /\ bf_prec f = N.of_nat (level o) /\ bf_assoc f = LeftA.
Proof.
  intros o Ho. cbn [ops skipn map In] in Ho. destruct Ho as [<-|[<-|[<-|[]]]]; eexists; (split; [first [exact and_is|exact xor_is|exact or_is]|split; reflexivity]).
Qed.
Lemma groups_iff : forall o o', In o (ops 0) -> In o' (ops 0) -> groups_left c o o' <-> level o' <= level o.
Proof.
  intros o o' Ho Ho'. destruct (the_op o Ho) as (f & F1 & F2 & F3), (the_op o' Ho') as (g & G1 & G2 & G3). unfold groups_left. split.
  - intros (f' & g' & X & Y & Z). rewrite F1 in X. rewrite G1 in Y. injection X as <-. injection Y as <-. rewrite F2, G2 in Z. destruct Z as [Z|[Z _]]; lia.
  - intros L. exists f, g. split; [exact F1|]. split; [exact G1|]. rewrite F2, G2. destruct (Nat.eq_dec (level o') (level o)) as [Q|Q]; [right; rewrite Q; auto|left; lia].
Qed.
Lemma op_spells : forall o, In o (ops 0) -> spells c parse (TBinary o) o.
Proof.
  intros o Ho. cbn [ops skipn map In] in Ho. split; [reflexivity|]. split; [apply word_only; cbn; tauto|]. split.
  - left. destruct Ho as [<-|[<-|[<-|[]]]]; [exists 97%N, (lit "nd")|exists 120%N, (lit "or")|exists 111%N, (lit "r")]; (split; [reflexivity|]); (split; [unfold letter; lia|]); apply Forall_forall; intros x Hx; left; cbn in Hx;
      repeat (destruct Hx as [<-|Hx]; [unfold letter; lia|]); destruct Hx.
  - intros (f & X & _). rewrite no_unary in X. discriminate.
Qed.
Lemma op_sign : forall o, In o (ops 0) -> sign_may_follow c o.
Proof.
  intros o Ho. split.
  - intros (ch & t & _ & U & _). unfold unary in U. rewrite no_unary in U. contradiction.
  - intros (ch & -> & _). cbn in Ho. repeat (destruct Ho as [Ho|Ho]; [discriminate|]). destruct Ho.
Qed.
Lemma ops_sub : forall n o, In o (ops n) -> In o (ops 0) /\ n <= level o.
Proof.
  intros n o H. split; [unfold ops in *; rewrite <- (firstn_skipn n); apply in_or_app; right; exact H|].
  destruct n as [|[|[|n]]]; [lia| | |]; cbn in H; repeat (destruct H as [<-|H]; [vm_compute; lia|]); try destruct H. destruct n; destruct H.
Qed.
(** A tree for a piece of a formula, whose operators outside of brackets are of the level [n] or above. *)
Definition has_tree (n : nat) (ws : list str) (v : V) : Prop :=
  exists e, Forall2 (spells c parse) (print e) ws /\ readable c e /\ wf c e /\ (forall w, denote c e w = (Ok v, w)) /\ ends_in_prefix e = false /\
    (forall o, In o (left_ops e) \/ In o (right_ops e) -> In o (ops n)).
Lemma tree_bin : forall n o f l r x y z, In o (ops n) -> level o = n -> has_tree n l x -> has_tree (S n) r y ->
  get_binary c o = Some f -> (forall w, bf_call f x y w = (Ok z, w)) -> has_tree n (l ++ o :: r) z.
Proof.
  intros n o f l r x y z Ho Hn (a & A1 & A2 & A3 & A4 & A5 & A6) (b & B1 & B2 & B3 & B4 & B5 & B6) Hf Hz. destruct (ops_sub n o Ho) as [O1 _].
  exists (EBin o a b). split; [|split; [|split; [|split; [|split]]]].
  - cbn [print]. apply Forall2_app; [exact A1|]. constructor; [apply op_spells; exact O1|exact B1].
  - cbn [readable]. split; [exact A2|]. split; [exact B2|]. intros _. apply op_sign. exact O1.
  - cbn [wf]. split; [exact A3|]. split; [exact B3|]. split; [congruence|]. split; [exact A5|]. split.
    + intros o' Ho'. destruct (ops_sub n o' (A6 o' (or_intror Ho'))) as [P1 P2]. apply groups_iff; [exact P1|exact O1|lia].
    + intros o' Ho' G. destruct (ops_sub (S n) o' (B6 o' (or_introl Ho'))) as [P1 P2]. apply groups_iff in G; [lia|exact O1|exact P1].
  - intros w. cbn [denote]. unfold bind. rewrite A4, B4. unfold apply_binary. rewrite Hf. apply Hz.
  - exact B5.
  - intros o' [H|H]; cbn [left_ops right_ops] in H; apply in_app_or in H; destruct H as [H|[<-|[]]]; try exact Ho; [apply A6; left; exact H|].
    destruct (ops_sub (S n) o' (B6 o' (or_intror H))) as [P1 P2]. specialize (B6 o' (or_intror H)). unfold ops in *. destruct n as [|[|[|n]]]; cbn in B6 |- *; tauto.
Qed.
Lemma tree_up : forall n ws v, has_tree (S n) ws v -> has_tree n ws v.
Proof.
  intros n ws v (e & A & B & C & D & F & G). exists e. split; [exact A|]. split; [exact B|]. split; [exact C|]. split; [exact D|]. split; [exact F|].
  intros o Ho. specialize (G o Ho). unfold ops in *. destruct n as [|[|[|n]]]; cbn in G |- *; tauto.
Qed.
Lemma trees : (forall ws v, atomic worth op_and op_or op_xor ws v -> has_tree 3 ws v) /\ (forall ws v, disjunction worth op_and op_or op_xor ws v -> has_tree 2 ws v) /\
  (forall ws v, exclusion worth op_and op_or op_xor ws v -> has_tree 1 ws v) /\ (forall ws v, formula worth op_and op_or op_xor ws v -> has_tree 0 ws v).
Proof.
  apply formulas_mind.
  - intros s v [Hv|[Hn Hc]].
    + exists (ENum v). split; [constructor; [exact Hv|constructor]|]. split; [exact I|]. split; [exact I|]. split; [reflexivity|]. split; [reflexivity|]. intros o [[]|[]].
    + assert (K : get_constant c s = Some v) by (destruct const_is as [C1 C2]; destruct Hc as [[-> ->]|[-> ->]]; assumption).
      exists (EConst s). split; [constructor; [|constructor]|].
      * split; [reflexivity|]. split; [exact Hn|]. split; [|unfold constant; congruence]. unfold variable. rewrite logic_is. cbn. tauto.
      * split; [exact I|]. split; [exact I|]. split; [intros w; cbn [denote]; rewrite K; reflexivity|]. split; [reflexivity|]. intros o [[]|[]].
  - intros ws v _ (e & A & B & C & D & F & G). exists (EGroup Parenthesis e). split; [|split; [exact B|split; [exact C|split; [exact D|split; [reflexivity|intros o [[]|[]]]]]]].
    cbn [print]. constructor; [split; [reflexivity|apply bracket_nameless; left; reflexivity]|]. apply Forall2_app; [exact A|]. constructor; [|constructor]. split; [reflexivity|apply bracket_nameless; right; left; reflexivity].
  - intros ws v _ H. apply tree_up. exact H.
  - intros l r x y _ Hl _ Hr. eapply (tree_bin 2); [left; reflexivity|reflexivity|exact Hl|exact Hr|exact or_is|reflexivity].
  - intros ws v _ H. apply tree_up. exact H.
  - intros l r x y _ Hl _ Hr. eapply (tree_bin 1); [left; reflexivity|reflexivity|exact Hl|exact Hr|exact xor_is|reflexivity].
  - intros ws v _ H. apply tree_up. exact H.
  - intros l r x y _ Hl _ Hr. eapply (tree_bin 0); [left; reflexivity|reflexivity|exact Hl|exact Hr|exact and_is|reflexivity].
Qed.
Lemma logic_eval : forall s ws v w, lexes s ws -> formula worth op_and op_or op_xor ws v -> eval c parse dsplitter dbg s w = (Ok v, w).
Proof.
  intros s ws v w Hs Hf. destruct (proj2 (proj2 (proj2 trees)) ws v Hf) as (e & A & B & C & D & _).
  rewrite (C16_eval_text V W c parse dbg e s w C); [apply D|]. exists ws. split; [exact Hs|]. split; [exact A|]. split; [exact B|]. rewrite logic_is. discriminate.
Qed.
End Proof.

(** ** The example over [bool]: every formula evaluates to its truth value. *)
Theorem C80_truth : forall W E dbg (d : dctx bool W), bool_context E dbg = Ok d ->
  forall s ws v w, lexes s ws -> formula (fun s v => s = lit "true" /\ v = true \/ s = lit "false" /\ v = false) andb orb xorb ws v ->
  eval (to_ctx E d) parse_bool dsplitter dbg s w = (Ok v, w).
Proof.
  intros W E dbg d Hd s ws v w Hs Hf. refine (logic_eval andb orb xorb E dbg true false d Hd parse_bool _ s ws v w Hs _).
  - intros x Hx. cbn in Hx. repeat (destruct Hx as [<-|Hx]; [reflexivity|]). destruct Hx.
  - assert (M : forall value value' : str -> bool -> Prop, (forall s v, value s v -> value' s v) ->
      (forall ws v, atomic value andb orb xorb ws v -> atomic value' andb orb xorb ws v) /\ (forall ws v, disjunction value andb orb xorb ws v -> disjunction value' andb orb xorb ws v) /\
      (forall ws v, exclusion value andb orb xorb ws v -> exclusion value' andb orb xorb ws v) /\ (forall ws v, formula value andb orb xorb ws v -> formula value' andb orb xorb ws v)).
    { intros value value' HV. apply formulas_mind; intros; solve [apply F_word; auto|apply F_group; auto|apply F_atom; auto|apply F_or; auto|apply F_disjunction; auto|apply F_xor; auto|apply F_exclusion; auto|apply F_and; auto]. }
    refine (proj2 (proj2 (proj2 (M _ _ _))) ws v Hf). intros s' v' [[-> ->]|[-> ->]]; left; reflexivity.
Qed.
Print Assumptions C80_truth.

(** ** The example over [u8]: the operators work bit by bit on numerals up to 255; [true] is 1 and [false] 0. *)
Theorem C80_bits : forall W E dbg (d : dctx Z W), u8_context E dbg = Ok d ->
  forall s ws v w, lexes s ws -> formula (fun s v => (numeral 10 false s v /\ (0 <= v < 256)%Z) \/ s = lit "true" /\ v = 1%Z \/ s = lit "false" /\ v = 0%Z) Z.land Z.lor Z.lxor ws v ->
  eval (to_ctx E d) (parse_int u8) dsplitter dbg s w = (Ok v, w).
Proof.
  intros W E dbg d Hd s ws v w Hs Hf. refine (logic_eval Z.land Z.lor Z.lxor E dbg 1%Z 0%Z d Hd (parse_int u8) _ s ws v w Hs _).
  - intros x Hx. cbn in Hx. repeat (destruct Hx as [<-|Hx]; [reflexivity|]). destruct Hx.
  - assert (M : forall value value' : str -> Z -> Prop, (forall s v, value s v -> value' s v) ->
      (forall ws v, atomic value Z.land Z.lor Z.lxor ws v -> atomic value' Z.land Z.lor Z.lxor ws v) /\ (forall ws v, disjunction value Z.land Z.lor Z.lxor ws v -> disjunction value' Z.land Z.lor Z.lxor ws v) /\
      (forall ws v, exclusion value Z.land Z.lor Z.lxor ws v -> exclusion value' Z.land Z.lor Z.lxor ws v) /\ (forall ws v, formula value Z.land Z.lor Z.lxor ws v -> formula value' Z.land Z.lor Z.lxor ws v)).
    { intros value value' HV. apply formulas_mind; intros; solve [apply F_word; auto|apply F_group; auto|apply F_atom; auto|apply F_or; auto|apply F_disjunction; auto|apply F_xor; auto|apply F_exclusion; auto|apply F_and; auto]. }
    refine (proj2 (proj2 (proj2 (M _ _ _))) ws v Hf). intros s' v' [[Hn Hv]|[[-> ->]|[-> ->]]]; [left; apply parse_int_spec; [reflexivity|]; split; [exact Hn|exact Hv] | right; split; [reflexivity|left; split; reflexivity] | right; split; [reflexivity|right; split; reflexivity]].
Qed.
Print Assumptions C80_bits.

(** The contexts can be built. *)
Theorem C80_built : forall W E dbg, (exists d : dctx bool W, bool_context E dbg = Ok d) /\ (exists d : dctx Z W, u8_context E dbg = Ok d).
Proof.
  assert (G : forall V W (oa oo ox : V -> V -> V) E dbg y n, exists d : dctx V W, logic_context oa oo ox E dbg y n = Ok d).
  { intros V W oa oo ox E dbg y n.
    pose (l := [SConst (lit "true") y; SConst (lit "false") n; SBin (AndOperator oa); SBin (OrOperator oo); SBin (XorOperator ox)] : list (step V W)).
    assert (X : logic_context oa oo ox E dbg y n = build (map (perf E dbg) l) (with_config config_new)) by reflexivity.
    rewrite X, build_ctx by (clear; vm_compute; reflexivity). eexists. reflexivity. }
  intros W E dbg. split; apply G.
Qed.
Print Assumptions C80_built.

(** The usual reading, [and] before [or], is not the example's: [true or false and false]. *)
Definition logic_case (s : string) : res bool :=
  match bool_context std_env true with Ok d => fst (eval (to_ctx (W := unit) std_env d) parse_bool dsplitter true (lit s) tt) | _ => Panic end.
Theorem C80_usual_precedence_refuted : logic_case "true or false and false" = Ok (andb (orb true false) false) /\ andb (orb true false) false <> orb true (andb false false).
Proof. split; [vm_compute; reflexivity|discriminate]. Qed.
Print Assumptions C80_usual_precedence_refuted.

Example C80_case : lexes (lit "(true or false) and (true xor false)") (map lit ["("; "true"; "or"; "false"; ")"; "and"; "("; "true"; "xor"; "false"; ")"]%string) /\
  formula (fun s v => s = lit "true" /\ v = true \/ s = lit "false" /\ v = false) andb orb xorb (map lit ["("; "true"; "or"; "false"; ")"; "and"; "("; "true"; "xor"; "false"; ")"]%string) true /\
  logic_case "(true or false) and (true xor false)" = Ok true /\
  match u8_context std_env true with Ok d => fst (eval (to_ctx (W := unit) std_env d) (parse_int u8) dsplitter true (lit "12 or 3 xor 255 and 170") tt) | _ => Panic end = Ok 160%Z.
Proof.
  split; [apply C11_maximal_munch; vm_compute; reflexivity|]. split; [|split; vm_compute; reflexivity].
  set (val := fun s v => _). assert (T : atomic val andb orb xorb [lit "true"] true) by (constructor; left; split; reflexivity). assert (F : atomic val andb orb xorb [lit "false"] false) by (constructor; right; split; reflexivity).
  apply (F_and val andb orb xorb (map lit ["("; "true"; "or"; "false"; ")"]%string) (map lit ["("; "true"; "xor"; "false"; ")"]%string) true true).
  - apply F_exclusion, F_disjunction, F_atom. apply (F_group val andb orb xorb (map lit ["true"; "or"; "false"]%string) true). apply F_exclusion, F_disjunction.
    apply (F_or val andb orb xorb [lit "true"] [lit "false"] true false); [apply F_atom; exact T|exact F].
  - apply F_disjunction, F_atom. apply (F_group val andb orb xorb (map lit ["true"; "xor"; "false"]%string) true). apply F_exclusion.
    apply (F_xor val andb orb xorb [lit "true"] [lit "false"] true false); [apply F_disjunction, F_atom; exact T|apply F_atom; exact F].
Qed.
