(** * C111: the expressions of the shipped arithmetic contexts are those that the usual rules allow

    Vocabulary: SpecUsualTree (the rules), SpecExpr (the trees that a context reads), SpecDecCalc, SpecDoubleCalc, SpecComplexCalc (the calculators). *)
From Coq Require Import List NArith ZArith QArith Bool Arith Lia String.
From Verif Require Import ModelBase ModelContext ModelEvaluator ModelText ModelSplit ModelTokenizer ModelDefault ModelFloat ModelNum ModelOps ModelDecimal ModelComplex ModelStd
  SpecText SpecExpr SpecUsual SpecRepl SpecTokenizer SpecCalculator SpecUsualTree ProofText ProofRpn ProofCtx ProofDecimal ProofComplex PropLex.
From Verif Require PropBlame PropEvaluator PropUsual ProofCalculator PropDecCalc PropDoubleCalc PropComplexCalc SpecDecCalc SpecDecimal SpecDoubleCalc SpecComplexCalc SpecComplexText PropComplexText PropComplex.
Import ListNotations.

(** A shipped context for arithmetic, and whether it has factorials. *)
Inductive arithmetic {W} : forall V, env -> dctx V W -> config -> bool -> Prop :=
| A_checked : forall V (n : num V) L (rnd : W -> f64 * W) docs E dbg cf d, checked_context n L rnd docs E dbg cf = Ok d -> arithmetic V E d cf true
| A_unchecked : forall V (n : num V) L (rnd : W -> f64 * W) E dbg cf d, unchecked_context n L rnd E dbg cf = Ok d -> arithmetic V E d cf true
| A_decimal : forall D (L : dlib D) fuel (rnd : W -> f64 * W) E dbg cf d, decimal_context L fuel rnd E dbg cf = Ok d -> arithmetic D E d cf true
| A_complex : forall L (rnd : W -> f64 * W) E dbg cf d, complex_context L rnd E dbg cf = Ok d -> arithmetic c64 E d cf false.

Lemma arithmetic_is : forall W V E (d : dctx V W) cf fa, arithmetic V E d cf fa -> PropUsual.arithmetic_context V (to_ctx E d).
Proof.
  intros W V E d cf fa H. destruct H as [V n L rnd docs E dbg cf d Hd|V n L rnd E dbg cf d Hd|D L fuel rnd E dbg cf d Hd|L rnd E dbg cf d Hd].
  - exact (PropUsual.AC_checked V n L rnd docs E dbg cf d Hd).
  - exact (PropUsual.AC_unchecked V n L rnd E dbg cf d Hd).
  - exact (PropUsual.AC_decimal D L fuel rnd E dbg cf d Hd).
  - exact (PropUsual.AC_complex L rnd E dbg cf d Hd).
Qed.
Lemma settings : forall W V E (d : dctx V W) cf fa, arithmetic V E d cf fa -> implicit_mul (d_config d) = implicit_mul cf /\ custom_function_call (d_config d) = custom_function_call cf.
Proof.
  intros W V E d cf fa H. destruct H as [V n L rnd docs E dbg cf d Hd|V n L rnd E dbg cf d Hd|D L fuel rnd E dbg cf d Hd|L rnd E dbg cf d Hd].
  - apply checked_inv in Hd. destruct Hd as (p & e & _ & _ & ->). split; reflexivity.
  - apply unchecked_inv in Hd. destruct Hd as (p & e & _ & _ & ->). split; reflexivity.
  - rewrite decimal_is in Hd. injection Hd as <-. split; reflexivity.
  - rewrite complex_is in Hd. injection Hd as <-. split; reflexivity.
Qed.
Lemma small_names : forall n, In n ["+"; "-"; "*"; "/"; "mod"; "^"; "!"]%string -> map small (lit n) = lit n.
Proof. intros n I. cbn [In] in I. repeat (destruct I as [<-|I]; [reflexivity|]). destruct I. Qed.
Lemma signs : forall W V E (d : dctx V W) cf fa, arithmetic V E d cf fa -> forall n u, In n ["+"; "-"]%string -> ascii_alike u (lit n) -> has_notation (to_ctx E d) u Prefix.
Proof.
  intros W V E d cf fa H n u I A. cbn [In] in I. destruct H as [V n0 L rnd docs E dbg cf d Hd|V n0 L rnd E dbg cf d Hd|D L fuel rnd E dbg cf d Hd|L rnd E dbg cf d Hd]; destruct I as [<-|[<-|[]]]; eexists.
  - split; [exact (checked_un n0 L rnd docs E dbg cf d 0 _ u Hd eq_refl A)|reflexivity].
  - split; [exact (checked_un n0 L rnd docs E dbg cf d 1 _ u Hd eq_refl A)|reflexivity].
  - split; [exact (unchecked_un n0 L rnd E dbg cf d 0 _ u Hd eq_refl A)|reflexivity].
  - split; [exact (unchecked_un n0 L rnd E dbg cf d 1 _ u Hd eq_refl A)|reflexivity].
  - split; [exact (dec_un L fuel rnd E dbg cf d Hd 0 _ u eq_refl A)|reflexivity].
  - split; [exact (dec_un L fuel rnd E dbg cf d Hd 1 _ u eq_refl A)|reflexivity].
  - split; [exact (cx_un L rnd E dbg cf d Hd 0 _ u eq_refl A)|reflexivity].
  - split; [exact (cx_un L rnd E dbg cf d Hd 1 _ u eq_refl A)|reflexivity].
Qed.
Lemma bang : forall W V E (d : dctx V W) cf fa, arithmetic V E d cf fa -> forall u, ascii_alike u (lit "!") -> if fa then has_notation (to_ctx E d) u Postfix else get_unary (to_ctx E d) u = None.
Proof.
  intros W V E d cf fa H u A. destruct H as [V n0 L rnd docs E dbg cf d Hd|V n0 L rnd E dbg cf d Hd|D L fuel rnd E dbg cf d Hd|L rnd E dbg cf d Hd].
  - eexists. split; [exact (checked_un n0 L rnd docs E dbg cf d 2 _ u Hd eq_refl A)|reflexivity].
  - eexists. split; [exact (unchecked_un n0 L rnd E dbg cf d 2 _ u Hd eq_refl A)|reflexivity].
  - eexists. split; [exact (dec_un L fuel rnd E dbg cf d Hd 2 _ u eq_refl A)|reflexivity].
  - destruct (get_unary (to_ctx E d) u) as [f|] eqn:G; [|reflexivity]. exfalso. destruct (cx_un_found L rnd E dbg cf d Hd u f G) as [I X].
    rewrite (eq_ic_lower E u (lit "!") (uf_name f) (uf_name f) (alike_lower E _ _ A) eq_refl) in X. cbn [In cx_uns] in I. destruct I as [<-|[<-|[]]]; cbn in X; discriminate X.
Qed.

Section Tree.
Context {V W : Type}.
Variables (E : env) (d d' : dctx V W) (cf : config) (fa : bool).
Hypothesis HA : arithmetic V E d cf fa.
Hypothesis HS : same_but_variables d d'.
Notation c := (to_ctx E d').
Lemma lookups : get_unary c = get_unary (to_ctx E d) /\ get_binary c = get_binary (to_ctx E d) /\ implicit_mul (cfg c) = implicit_mul cf /\ custom_function_call (cfg c) = custom_function_call cf.
Proof. destruct HS as (_ & _ & A3 & A4 & A5). destruct (settings W V E d cf fa HA) as [S1 S2]. cbn [to_ctx get_unary get_binary cfg]. rewrite A3, A4, A5. auto. Qed.
Lemma binary_names : forall o, ascii_string o -> get_binary c o <> None <-> one_of ["+"; "-"; "*"; "/"; "mod"; "^"]%string o.
Proof.
  intros o A. destruct lookups as (_ & -> & _). split.
  - intros G. destruct (proj1 (PropUsual.C54_no_others W V _ (arithmetic_is W V E d cf fa HA) o A) G) as (s & I & K). exists s. split; [exact I|]. apply ProofCalculator.alike_named; [exact K|]. apply small_names. unfold usual_operators in I. cbn [In] in *. tauto.
  - intros (s & I & K). destruct (PropUsual.usual_table W V _ (arithmetic_is W V E d cf fa HA) s o I) as (f & -> & _); [|discriminate]. apply ProofCalculator.named_alike; [exact K|]. apply small_names. cbn [In] in *. tauto.
Qed.
Lemma binary_table : forall o, one_of ["+"; "-"; "*"; "/"; "mod"; "^"]%string o -> exists f, get_binary c o = Some f /\ bf_prec f = strength o /\ (bf_assoc f = LeftA <-> strength o <> 3%N).
Proof.
  intros o (s & I & K). destruct lookups as (_ & -> & _). assert (Sm : map small (lit s) = lit s) by (apply small_names; cbn [In] in *; tauto).
  destruct (PropUsual.usual_table W V _ (arithmetic_is W V E d cf fa HA) s o I (ProofCalculator.named_alike o s K Sm)) as (f & G & P & Q). exists f. split; [exact G|]. rewrite P, Q.
  assert (N : forall m, str_eqb (lit s) (lit m) = false -> named o m = false) by (intros m Hm; exact (ProofCalculator.named_other o s m K Hm)).
  unfold strength. cbn [In] in I. destruct I as [<-|[<-|[<-|[<-|[<-|[<-|[]]]]]]].
  - rewrite K. split; [reflexivity|]. split; [discriminate|reflexivity].
  - rewrite K, (N "+"%string eq_refl). split; [reflexivity|]. split; [discriminate|reflexivity].
  - rewrite (N "+"%string eq_refl), (N "-"%string eq_refl), (N "^"%string eq_refl). split; [reflexivity|]. split; [discriminate|reflexivity].
  - rewrite (N "+"%string eq_refl), (N "-"%string eq_refl), (N "^"%string eq_refl). split; [reflexivity|]. split; [discriminate|reflexivity].
  - rewrite (N "+"%string eq_refl), (N "-"%string eq_refl), (N "^"%string eq_refl). split; [reflexivity|]. split; [discriminate|reflexivity].
  - rewrite (N "+"%string eq_refl), (N "-"%string eq_refl), K. split; [reflexivity|]. split; [discriminate|]. intros X. exfalso. apply X. reflexivity.
Qed.
Lemma groups_usual : forall o1 o2, one_of ["+"; "-"; "*"; "/"; "mod"; "^"]%string o1 -> one_of ["+"; "-"; "*"; "/"; "mod"; "^"]%string o2 -> groups_left c o1 o2 <-> binds_first o1 o2.
Proof.
  intros o1 o2 H1 H2. destruct (binary_table o1 H1) as (f1 & G1 & P1 & Q1), (binary_table o2 H2) as (f2 & G2 & P2 & _). unfold groups_left, binds_first. split.
  - intros (g1 & g2 & X1 & X2 & K). rewrite G1 in X1. rewrite G2 in X2. injection X1 as <-. injection X2 as <-. rewrite P1, P2, Q1 in K. exact K.
  - intros K. exists f1, f2. split; [exact G1|]. split; [exact G2|]. rewrite P1, P2, Q1. exact K.
Qed.
Lemma unary_prefix : forall u, ascii_string u -> has_notation c u Prefix <-> one_of ["+"; "-"]%string u.
Proof.
  intros u A. unfold has_notation. destruct lookups as (-> & _). split.
  - intros (f & G & N). destruct (proj2 (PropUsual.C54_no_others W V _ (arithmetic_is W V E d cf fa HA) u A)) as (s & I & K); [rewrite G; discriminate|].
    cbn [In] in I. destruct I as [<-|[<-|[<-|[]]]].
    + exists "+"%string. split; [left; reflexivity|]. apply ProofCalculator.alike_named; [exact K|reflexivity].
    + exists "-"%string. split; [right; left; reflexivity|]. apply ProofCalculator.alike_named; [exact K|reflexivity].
    + exfalso. pose proof (bang W V E d cf fa HA u K) as B. destruct fa; [destruct B as (g & G' & N'); congruence|congruence].
  - intros (s & I & K). exact (signs W V E d cf fa HA s u I (ProofCalculator.named_alike u s K (small_names s ltac:(cbn [In] in *; tauto)))).
Qed.
Lemma unary_postfix : forall u, ascii_string u -> has_notation c u Postfix <-> fa = true /\ one_of ["!"]%string u.
Proof.
  intros u A. unfold has_notation. destruct lookups as (-> & _). split.
  - intros (f & G & N). destruct (proj2 (PropUsual.C54_no_others W V _ (arithmetic_is W V E d cf fa HA) u A)) as (s & I & K); [rewrite G; discriminate|].
    assert (X : forall s, In s ["+"; "-"]%string -> ascii_alike u (lit s) -> False) by (intros s0 I0 K0; destruct (signs W V E d cf fa HA s0 u I0 K0) as (g & G' & N'); congruence).
    cbn [In] in I. destruct I as [<-|[<-|[<-|[]]]]; [destruct (X "+"%string ltac:(left; reflexivity) K)|destruct (X "-"%string ltac:(right; left; reflexivity) K)|].
    pose proof (bang W V E d cf fa HA u K) as B. destruct fa; [|congruence]. split; [reflexivity|]. exists "!"%string. split; [left; reflexivity|]. apply ProofCalculator.alike_named; [exact K|reflexivity].
  - intros [F (s & I & K)]. destruct I as [<-|[]]. pose proof (bang W V E d cf fa HA u (ProofCalculator.named_alike u "!" K eq_refl)) as B. rewrite F in B. exact B.
Qed.
Lemma edge_one : forall e : expr V, ascii_operators e -> (wf c e \/ usual (implicit_mul cf) (custom_function_call cf) fa e) ->
  (forall o, In o (left_ops e) -> one_of ["+"; "-"; "*"; "/"; "mod"; "^"]%string o) /\ (forall o, In o (right_ops e) -> one_of ["+"; "-"; "*"; "/"; "mod"; "^"]%string o).
Proof.
  assert (T : one_of ["+"; "-"; "*"; "/"; "mod"; "^"]%string times) by (exists "*"%string; split; [cbn [In]; tauto|reflexivity]).
  induction e as [v|x|x|g e IH|f g args IH|u e IH|e u IH|o l r IHl IHr|l r IHl IHr] using expr_ind'; intros A H; cbn [left_ops right_ops]; try (split; intros ? []).
  - destruct A as (Ao & Al & Ar). assert (X : one_of ["+"; "-"; "*"; "/"; "mod"; "^"]%string o) by (destruct H as [(_ & _ & H & _)|(H & _)]; [apply binary_names; assumption|exact H]).
    assert (Hl : wf c l \/ usual (implicit_mul cf) (custom_function_call cf) fa l) by (destruct H as [(H & _)|(_ & H & _)]; auto). assert (Hr : wf c r \/ usual (implicit_mul cf) (custom_function_call cf) fa r) by (destruct H as [(_ & H & _)|(_ & _ & H & _)]; auto).
    split; intros o' I; apply in_app_or in I; (destruct I as [I|[<-|[]]]; [|exact X]); [exact (proj1 (IHl Al Hl) o' I)|exact (proj2 (IHr Ar Hr) o' I)].
  - destruct A as (Al & Ar). assert (Hr : wf c r \/ usual (implicit_mul cf) (custom_function_call cf) fa r) by (destruct H as [(_ & H & _)|(_ & H & _)]; auto).
    split; [intros ? []|]. intros o' I. apply in_app_or in I. destruct I as [I|[<-|[]]]; [exact (proj2 (IHr Ar Hr) o' I)|exact T].
Qed.
Lemma wf_usual : forall e : expr V, ascii_operators e -> wf c e <-> usual (implicit_mul cf) (custom_function_call cf) fa e.
Proof.
  assert (T : one_of ["+"; "-"; "*"; "/"; "mod"; "^"]%string times) by (exists "*"%string; split; [cbn [In]; tauto|reflexivity]).
  destruct lookups as (_ & _ & Im & Cu).
  induction e as [v|x|x|g e IH|f g args IH|u e IH|e u IH|o l r IHl IHr|l r IHl IHr] using expr_ind'; intros A; cbn [wf usual ascii_operators] in *; rewrite ?Im, ?Cu; try tauto.
  - assert (X : (fix all_wf es := match es with [] => True | e :: es' => wf c e /\ all_wf es' end) args <-> (fix all es := match es with [] => True | e :: es' => usual (implicit_mul cf) (custom_function_call cf) fa e /\ all es' end) args).
    { clear - IH A. induction args as [|a args IHa]; [tauto|]. inversion IH as [|? ? I1 I2]; subst. destruct A as [A1 A2]. rewrite (I1 A1), (IHa I2 A2). tauto. }
    rewrite X. tauto.
  - destruct A as [Au Ae]. rewrite (IH Ae), (unary_prefix u Au). tauto.
  - destruct A as [Au Ae]. rewrite (IH Ae), (unary_postfix u Au). tauto.
  - pose proof A as (Ao & Al & Ar). rewrite (IHl Al), (IHr Ar), (binary_names o Ao). split.
    + intros (L & R & O_ & P & G1 & G2). repeat split; try assumption.
      * intros o' I. apply groups_usual; [exact (proj2 (edge_one l Al (or_intror L)) o' I)|exact O_|exact (G1 o' I)].
      * intros o' I K. apply (G2 o' I). apply groups_usual; [exact O_|exact (proj1 (edge_one r Ar (or_intror R)) o' I)|exact K].
    + intros (O_ & L & R & P & G1 & G2). repeat split; try assumption.
      * intros o' I. apply groups_usual; [exact (proj2 (edge_one l Al (or_intror L)) o' I)|exact O_|exact (G1 o' I)].
      * intros o' I K. apply (G2 o' I). apply groups_usual; [exact O_|exact (proj1 (edge_one r Ar (or_intror R)) o' I)|exact K].
  - pose proof A as (Al & Ar). rewrite (IHl Al), (IHr Ar). split; intros (L & R & P & Q & G); repeat split; try assumption; intros o' I K; apply (G o' I); (apply groups_usual; [exact T|exact (proj1 (edge_one r Ar (or_intror R)) o' I)|exact K]).
Qed.
End Tree.
(** The trees a context reads are exactly those that the usual rules allow. *)
Theorem C111_trees : forall V W E (d d' : dctx V W) cf fa, arithmetic V E d cf fa -> same_but_variables d d' ->
  forall e, ascii_operators e -> wf (to_ctx E d') e <-> usual (implicit_mul cf) (custom_function_call cf) fa e.
Proof. intros V W E d d' cf fa HA HS e A. exact (wf_usual E d d' cf fa HA HS e A). Qed.
Print Assumptions C111_trees.
(** No two of them are written with the same tokens. *)
Theorem C111_unambiguous : forall V W E (d : dctx V W) cf fa, arithmetic V E d cf fa ->
  forall e e' : expr V, ascii_operators e -> ascii_operators e' -> usual (implicit_mul cf) (custom_function_call cf) fa e -> usual (implicit_mul cf) (custom_function_call cf) fa e' -> print e = print e' -> e = e'.
Proof.
  intros V W E d cf fa HA e e' A A' U U' P. assert (S : same_but_variables d d) by (repeat split). apply (C111_trees V W E d d cf fa HA S e A) in U. apply (C111_trees V W E d d cf fa HA S e' A') in U'.
  destruct (PropEvaluator.C03_unique_reading V W (to_ctx E d) true (print e) (PropEvaluator.C03_trees_are_grammatical V W _ e U)) as (e0 & _ & _ & H & _). rewrite (H e U eq_refl), (H e' U' (eq_sym P)). reflexivity.
Qed.
Print Assumptions C111_unambiguous.
(** The text of such a tree is evaluated as the tree says, in every such context with any variables: operands from left to right, then the operation. *)
Theorem C111_text : forall V W E (d d' : dctx V W) cf fa, arithmetic V E d cf fa -> same_but_variables d d' ->
  forall dbg parse e s w, ascii_operators e -> usual (implicit_mul cf) (custom_function_call cf) fa e -> text_of (to_ctx E d') parse e s -> eval (to_ctx E d') parse dsplitter dbg s w = denote (to_ctx E d') e w.
Proof. intros V W E d d' cf fa HA HS dbg parse e s w A U T. exact (C16_eval_text _ _ _ parse dbg e s w (proj2 (C111_trees V W E d d' cf fa HA HS e A) U) T). Qed.
Print Assumptions C111_text.
(** So the calculators of decimals, doubles and complex numbers compute the values of the expressions that the usual rules allow. *)
Theorem C111_decimals : forall D W (L : dlib D) value, SpecDecimal.exact_decimals L value ->
  forall fuel (rnd : W -> f64 * W) E dbg cf d d', (64 <= fuel)%nat -> decimal_context L fuel rnd E dbg cf = Ok d -> same_but_variables d d' ->
  forall vars, (forall x, match get_variable (to_ctx E d') x, vars x with Some v, Some q => value v == q | None, None => True | _, _ => False end) ->
  forall parse e s r w, ascii_operators e -> usual (implicit_mul cf) (custom_function_call cf) true e -> text_of (to_ctx E d') parse e s -> SpecDecCalc.decimal value vars e = Some r ->
  exists z, eval (to_ctx E d') parse dsplitter dbg s w = (z, w) /\ SpecDecCalc.agrees value z r.
Proof.
  intros D W L value EX fuel rnd E dbg cf d d' Hf H Hs vars Hv parse e s r w A U T R.
  exact (PropDecCalc.C96_text D W L value EX fuel rnd E dbg cf d d' Hf H Hs vars Hv parse e s r w (proj2 (C111_trees D W E d d' cf true (A_decimal D L fuel rnd E dbg cf d H) Hs e A) U) T R).
Qed.
Print Assumptions C111_decimals.
Theorem C111_doubles : forall W fuel L (rnd : W -> f64 * W) (checked docs : bool) E dbg cf d d',
  (if checked then checked_context (f64_num fuel) L rnd docs E dbg cf else unchecked_context (f64_num fuel) L rnd E dbg cf) = Ok d -> same_but_variables d d' ->
  forall parse e s w, SpecDoubleCalc.known checked docs e -> ascii_operators e -> usual (implicit_mul cf) (custom_function_call cf) true e -> text_of (to_ctx E d') parse e s ->
  exists r, SpecDoubleCalc.worth L (get_variable (to_ctx E d')) fuel checked docs e r /\ eval (to_ctx E d') parse dsplitter dbg s w = (r, w).
Proof.
  intros W fuel L rnd checked docs E dbg cf d d' H Hs parse e s w K A U T.
  assert (HA : arithmetic f64 E d cf true) by (destruct checked; [exact (A_checked f64 (f64_num fuel) L rnd docs E dbg cf d H)|exact (A_unchecked f64 (f64_num fuel) L rnd E dbg cf d H)]).
  exact (PropDoubleCalc.C105_text W fuel L rnd checked docs E dbg cf d d' H Hs parse e s w K (proj2 (C111_trees f64 W E d d' cf true HA Hs e A) U) T).
Qed.
Print Assumptions C111_doubles.
Theorem C111_complex : forall W L (rnd : W -> f64 * W) E dbg cf d d', complex_context L rnd E dbg cf = Ok d -> same_but_variables d d' ->
  forall parse e s w, SpecComplexCalc.complex_known e -> ascii_operators e -> usual (implicit_mul cf) (custom_function_call cf) false e -> SpecComplexText.complex_text_of (to_ctx E d') parse e s ->
  exists r, SpecComplexCalc.complex_worth L (get_variable (to_ctx E d')) e r /\ eval (to_ctx E d') parse dsplitter dbg s w = (r, w).
Proof.
  intros W L rnd E dbg cf d d' H Hs parse e s w K A U T.
  exact (PropComplexCalc.C107_text W L rnd E dbg cf d d' H Hs parse e s w K (proj2 (C111_trees c64 W E d d' cf false (A_complex L rnd E dbg cf d H) Hs e A) U) T).
Qed.
Print Assumptions C111_complex.

(** ** Cases *)
Local Open Scope Z_scope.
(** [2(x + 3)^2 ^ 2 - 4 Mod 3!]: the powers group to the right and before the implied multiplication, [Mod] before the minus; the tree in which
    the implied multiplication is the base of the power is written alike, but is not allowed. *)
Definition base : expr Z := EGroup Parenthesis (EBin (lit "+") (EVar (lit "x")) (ENum 3)).
Definition squares : expr Z := EBin (lit "^") (ENum 2) (ENum 2).
Definition remainder_ : expr Z := EBin (lit "Mod") (ENum 4) (EPost (ENum 3) (lit "!")).
Definition tree : expr Z := EBin (lit "-") (EMul (ENum 2) (EBin (lit "^") base squares)) remainder_.
Definition other_tree : expr Z := EBin (lit "-") (EBin (lit "^") (EMul (ENum 2) base) squares) remainder_.
Ltac a_name := match goal with |- one_of ?l _ => let rec go l := match l with ?n :: ?l' => first [exists n; split; [cbn [In]; tauto|reflexivity]|go l'] end in go l end.
Example C111_case : usual true false true tree /\ ascii_operators tree /\ print other_tree = print tree /\ ~ usual true false true other_tree /\
  exists d : dctx Z unit, arithmetic Z std_env d implicit_config true.
Proof.
  split. { cbn [usual tree base squares remainder_]. repeat match goal with |- _ /\ _ => split end; try a_name; try exact I; try reflexivity; try (left; reflexivity);
    try (intros o' X; cbn in X; repeat (destruct X as [<-|X]; [|]); try destruct X; first [left; reflexivity|right; split; [reflexivity|discriminate]|intros [Y|[Y Z]]; first [discriminate Y|apply Z; reflexivity]]). }
  split. { cbn [ascii_operators tree base squares remainder_]. repeat split; try exact I; repeat constructor. }
  split; [reflexivity|]. split.
  - intros (_ & (_ & _ & _ & _ & X & _) & _). specialize (X (lit "*") (or_introl eq_refl)). destruct X as [X|[X _]]; discriminate X.
  - exists (std implicit_config). exact (A_checked Z _ _ _ _ _ _ _ _ PropBlame.std_is).
Qed.
