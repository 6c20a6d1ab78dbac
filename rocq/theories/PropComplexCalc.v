(** * C107: complex contexts are the calculator of SpecComplexCalc, for the library, the server and the command line

    Vocabulary: SpecComplexText (texts with imaginary numbers), SpecComplexCalc (the calculator), SpecServer (the types served), SpecJson. *)
From Coq Require Import List NArith ZArith QArith Bool Arith Lia String.
From Coq Require Import Floats.SpecFloat.
From Verif Require Import ModelServer ModelBase ModelContext ModelEvaluator ModelText ModelDefault ModelFloat ModelNum ModelOps ModelSplit ModelTokenizer ModelStd ModelComplex
  SpecExpr SpecText SpecOps SpecLex SpecParse SpecTokenizer SpecRepl SpecDecimal SpecDouble SpecFunctions SpecRound SpecComplex SpecComplexText SpecCalculator SpecDoubleCalc SpecComplexCalc
  ProofText ProofSplit ProofTok2 ProofWf ProofRound3 ProofComplex ProofDoubleCalc ProofDoubleCalc2 ProofComplexCalc ProofComplexCalc2 PropLex.
From Verif Require PropServer PropSource PropComplex PropComplexText PropDoubleCalc PropBytes ModelJson SpecJson PropOps ProofDecRef.
From Verif Require Import SpecServer.
Import ListNotations.
Local Open Scope Z_scope.

(** The text of an expression, where numbers may be imaginary, evaluates in a complex context with any variables to a result that the
    calculator allows. *)
Theorem C107_text : forall W L (rnd : W -> f64 * W) E dbg cf d d', complex_context L rnd E dbg cf = Ok d -> same_but_variables d d' ->
  forall parse e s w, complex_known e -> wf (to_ctx E d') e -> complex_text_of (to_ctx E d') parse e s ->
  exists r, complex_worth L (get_variable (to_ctx E d')) e r /\ eval (to_ctx E d') parse dsplitter dbg s w = (r, w).
Proof.
  intros W L rnd E dbg cf d d' H Hs parse e s w K Hwf Ht. assert (Ed := cx_d L rnd E dbg cf d H).
  assert (Hc : complex_number (cfg (to_ctx E d')) = true). { destruct Hs as (_ & _ & _ & _ & Hs). cbn [cfg to_ctx]. rewrite Hs, Ed. reflexivity. }
  assert (Hi : ends_operand (to_ctx E d') parse (lit "i")).
  { right. right. left. unfold constant. destruct Hs as (Hs & _). assert (X : get_constant (to_ctx E d') (lit "i") = get_constant (to_ctx E d) (lit "i")) by (cbn [get_constant to_ctx]; rewrite Hs; reflexivity).
    rewrite X, (cx_const L rnd E dbg cf d H 2 (lit "i") z_i (lit "i") eq_refl (alike_refl _)). discriminate. }
  destruct (PropComplexText.C92_text _ _ _ parse Hc Hi dbg e s w Hwf Ht) as [_ ->].
  exact (complex_said L rnd E dbg cf d d' H Hs e K w).
Qed.
Print Assumptions C107_text.

(** If num_complex's functions, the numerals and the variables are doubles, it allows one result only. *)
Theorem C107_determined : forall L vars e, proper_library L -> (forall x v, vars x = Some v -> a_complex v) -> complex_plain e ->
  forall r1 r2, complex_worth L vars e r1 -> complex_worth L vars e r2 -> r1 = r2.
Proof. intros L vars e HL HV P. apply (complex_decided L HL vars HV e P). Qed.
Print Assumptions C107_determined.

(** A request for complex numbers whose variables are accepted is answered with such a result. *)
Theorem C107_server : forall D W (sv : service D W) E dbg q, q_type q = Some NComplex -> NoDup (map fst (given q)) ->
  exists d, complexes sv E dbg (server_settings NComplex) = Ok d /\ (Forall (accepted sv E dbg (s_read_complex sv) d) (given q) -> forall w,
  exists d', with_variables sv E (s_read_complex sv) d (given q) d' /\
  forall e, complex_known e -> wf (to_ctx E d') e -> complex_text_of (to_ctx E d') (s_read_complex sv) e (q_expression q) ->
  exists r, complex_worth (s_clib sv) (get_variable (to_ctx E d')) e r /\ eval_expression sv E dbg q w = answer_to (s_show_complex sv) (r, w)).
Proof.
  intros D W sv E dbg q Hq Nd. assert (Ha : asked q = NComplex) by (unfold asked; rewrite Hq; reflexivity).
  destruct (PropServer.C37_values D W sv E dbg q NComplex c64 _ Ha (Serves_complex sv E dbg) Nd) as (d & Hd & Hno & X). cbn [k_context k_read k_show k_parse k_rules complex_kind] in *.
  exists d. split; [exact Hd|]. intros Ok_ w. destruct (X w) as [Y _]. destruct (Y Ok_) as (d' & Hd' & R). clear X Y.
  exists d'. split; [exact Hd'|]. intros e K Hwf Ht. rewrite R. change (split_into_tokens default_splitter) with dsplitter.
  destruct (C107_text W (s_clib sv) (s_random sv) E dbg _ d d' Hd (proj1 Hd') (s_read_complex sv) e (q_expression q) w K Hwf Ht) as (r & R1 & ->). eauto.
Qed.
Print Assumptions C107_server.

(** So does the command line. *)
Theorem C107_command_line : forall D W (sv : service D W) E dbg, exists d, complexes sv E dbg (command_line_settings NComplex) = Ok d /\
  forall e s w, complex_known e -> wf (to_ctx E d) e -> complex_text_of (to_ctx E d) (s_read_complex sv) e s ->
  exists r, complex_worth (s_clib sv) (fun _ => None) e r /\ cli_eval sv E dbg NComplex s w = printed (s_show_complex sv) (r, w).
Proof.
  intros D W sv E dbg. assert (Hf : NComplex <> NFloat) by discriminate.
  destruct (PropServer.C61_contexts D W sv E dbg NComplex c64 _ (Runs_other sv E dbg NComplex c64 _ Hf (Serves_complex sv E dbg))) as (d & Hd & Hno & R & _). cbn [k_context k_show k_parse k_rules complex_kind] in *.
  exists d. split; [exact Hd|]. intros e s w K Hwf Ht. rewrite R. change (split_into_tokens default_splitter) with dsplitter.
  destruct (C107_text W (s_clib sv) (s_random sv) E dbg _ d d Hd ltac:(repeat split) (s_read_complex sv) e s w K Hwf Ht) as (r & R1 & ->). exists r. split; [|reflexivity].
  revert R1. apply complex_vars. exact Hno.
Qed.
Print Assumptions C107_command_line.

(** From the bytes of a request to the bytes of the answer. *)
Theorem C107_bytes : forall D W (sv : service D W) E dbg number otherwise say a j t rest q query ps,
  SpecJson.white a -> SpecJson.value_text j t -> SpecJson.ends j rest -> unicode_string (a ++ t ++ rest) -> SpecJson.request_of number j q -> SpecJson.query_is query ps -> (forall m, unicode_string (say m)) -> q_type q = Some NComplex ->
  exists d, complexes sv E dbg (server_settings NComplex) = Ok d /\ (Forall (accepted sv E dbg (s_read_complex sv) d) (given q) -> forall w,
  exists d', with_variables sv E (s_read_complex sv) d (given q) d' /\
  forall e, complex_known e -> wf (to_ctx E d') e -> complex_text_of (to_ctx E d') (s_read_complex sv) e (q_expression q) ->
  exists r, complex_worth (s_clib sv) (get_variable (to_ctx E d')) e r /\ PropBytes.answered sv E dbg number otherwise say (utf8 (a ++ t ++ rest)) query ps (s_show_complex sv) (r, w) w).
Proof.
  intros D W sv E dbg number otherwise say a j t rest q query ps A T R U Q P Um Hq. assert (Ha : asked q = NComplex) by (unfold asked; rewrite Hq; reflexivity).
  destruct (PropBytes.C106_every_type D W sv E dbg number otherwise say a j t rest q query ps NComplex c64 _ A T R U Q P Um Ha (Serves_complex sv E dbg)) as (d & Hd & _ & H). cbn [k_context k_read k_show k_parse k_rules complex_kind] in *.
  exists d. split; [exact Hd|]. intros F w. destruct (proj1 (H w) F) as (d' & Hd' & An). exists d'. split; [exact Hd'|]. intros e K Hwf Ht.
  destruct (C107_text W (s_clib sv) (s_random sv) E dbg _ d d' Hd (proj1 Hd') (s_read_complex sv) e (q_expression q) w K Hwf Ht) as (r & R1 & Ez).
  exists r. split; [exact R1|]. change (split_into_tokens default_splitter) with PropLex.dsplitter in An. rewrite Ez in An. exact An.
Qed.
Print Assumptions C107_bytes.

(** ** Cases *)
Section Check.
Context {V W : Type}.
Variable c : ctx V W.
Variable parse : str -> option V.
Variable same : V -> V -> bool.
Hypothesis same_ok : forall x y, same x y = true -> x = y.
Fixpoint spelledb (ts : list (token V)) (ws : list str) : bool :=
  match ts, ws with
  | [], [] => true
  | t :: ts', s :: ws' =>
      match ws' with
      | i :: ws'' =>
          if match parse s with Some _ => str_eqb i (lit "i") | None => false end then
            match t, parse (s ++ lit "i") with TNumber v, Some v' => same v v' && spelledb ts' ws'' | _, _ => false end
          else spellsb same c parse t s && spelledb ts' ws'
      | [] => spellsb same c parse t s && spelledb ts' ws'
      end
  | _, _ => false
  end.
Lemma spelled_sound : forall n ts ws, (List.length ws <= n)%nat -> spelledb ts ws = true -> spelled c parse ts ws.
Proof using same_ok.
  induction n as [|n IH]; intros [|t ts] [|s ws] L H; try discriminate H; try (constructor; fail); cbn [List.length] in L; [lia|]. cbn [spelledb] in H. destruct ws as [|i ws].
  - apply andb_true_iff in H. destruct H as [H1 H2]. apply spelled_word; [apply (spells_sound same same_ok); exact H1|intros _ ws' X; discriminate X|apply IH; [cbn; lia|exact H2]].
  - destruct (parse s) eqn:Ps; [destruct (str_eqb i (lit "i")) eqn:Ei|].
    + destruct t; try discriminate. destruct (parse (s ++ lit "i")) eqn:Pi; [|discriminate]. apply andb_true_iff in H. destruct H as [H1 H2]. apply str_eqb_eq in Ei. apply same_ok in H1. subst. apply spelled_imaginary; [congruence|exact Pi|apply IH; [cbn in L; lia|exact H2]].
    + apply andb_true_iff in H. destruct H as [H1 H2]. apply spelled_word; [apply (spells_sound same same_ok); exact H1| |apply IH; [cbn in *; lia|exact H2]]. intros _ ws' X. injection X as -> ->. rewrite str_eqb_refl in Ei. discriminate Ei.
    + apply andb_true_iff in H. destruct H as [H1 H2]. apply spelled_word; [apply (spells_sound same same_ok); exact H1|intros X; congruence|apply IH; [cbn in *; lia|exact H2]].
Qed.
Lemma complex_text_sound : forall e s, spelledb (print e) (dsplitter s) && singleb c e = true -> complex_text_of c parse e s.
Proof using same_ok.
  intros e s H. apply andb_true_iff in H. destruct H as [H1 H2]. exists (dsplitter s). split; [apply split_lexes|]. split; [apply (spelled_sound _ _ _ (le_n _)); exact H1|apply single_sound; exact H2].
Qed.
End Check.
Definition same_c (x y : c64) : bool := PropDoubleCalc.same_f (fst x) (fst y) && PropDoubleCalc.same_f (snd x) (snd y).
Lemma same_c_ok : forall x y, same_c x y = true -> x = y.
Proof. intros [a b] [a' b'] H. unfold same_c in H. apply andb_true_iff in H. destruct H as [H1 H2]. cbn in *. apply PropDoubleCalc.same_f_ok in H1. apply PropDoubleCalc.same_f_ok in H2. congruence. Qed.
(** [sum(5, 7i, AVG(3, i)) mod (1 + 2i) * x - 2i (Sqrt(4) / (1 - 0.5 i) + 0 Pi)] with [x = 2], where [sqrt] stands for the identity: the
    doubles nearest to [4.2 - 5.4i]. *)
Definition cx_x : dctx c64 unit := snd (set_variable std_env true (lit "x") (f_of_Z 2, f_zero) PropComplexText.cx_d0).
Definition cn (s : string) : expr c64 := ENum (PropComplexText.reading (lit s)).
Definition cx_tree : expr c64 :=
  EBin (lit "-") (EBin (lit "*") (EBin (lit "mod") (ECall (lit "sum") Parenthesis [cn "5"; cn "7i"; ECall (lit "AVG") Parenthesis [cn "3"; cn "i"]]) (EGroup Parenthesis (EBin (lit "+") (cn "1") (cn "2i")))) (EVar (lit "x")))
    (EMul (cn "2i") (EGroup Parenthesis (EBin (lit "+") (EBin (lit "/") (ECall (lit "Sqrt") Parenthesis [cn "4"]) (EGroup Parenthesis (EBin (lit "-") (cn "1") (cn "0.5i")))) (EMul (cn "0") (EConst (lit "Pi")))))).
Definition cx_text : string := "sum(5, 7i, AVG(3, i)) mod (1 + 2i) * x - 2i (Sqrt(4) / (1 - 0.5 i) + 0 Pi)".
Definition flat_clib : clib := Clib (fun _ _ => (f_one, f_one)) (fun _ _ => (f_one, f_one)) (fun _ _ => (f_one, f_one)).
Lemma reading_complex : forall s, a_complex (PropComplexText.reading s).
Proof.
  assert (Z0 : a_complex (f_zero, f_zero)) by (split; exact zero_number). assert (P : forall s x, PropSource.parse_double s = Some x -> a_number x).
  { intros s x H. unfold PropSource.parse_double in H. destruct (PropSource.numeral_value s) as [q|]; [|discriminate]. injection H as <-. apply (rounds_number q), PropSource.nearest_rounds. }
  intros s. unfold PropComplexText.reading. destruct (PropComplexText.read_complex s) as [z|] eqn:R; [|exact Z0]. unfold PropComplexText.read_complex in R.
  assert (X : option_map (fun x => (x, f_zero)) (PropSource.parse_double s) = Some z -> a_complex z).
  { destruct (PropSource.parse_double s) eqn:Ps; [|discriminate]. intros Z. injection Z as <-. split; [exact (P _ _ Ps)|exact zero_number]. }
  destruct (rev s) as [|ch t]; [auto|]. destruct (N.eq_dec ch 105) as [->|Hne].
  - destruct (str_eqb (rev t) []); [injection R as <-; split; [exact zero_number|exact one_number]|]. destruct (PropSource.parse_double (rev t)) eqn:Ps; [|discriminate]. injection R as <-. split; [exact zero_number|exact (P _ _ Ps)].
  - apply X. destruct ch as [|p]; [exact R|]. repeat (destruct p as [p|p|]; try exact R). congruence.
Qed.
Ltac c_name := match goal with |- one_of _ _ => let rec go k := first [exists k; split; [cbn; tauto|reflexivity]] in
  first [go "+"%string|go "-"%string|go "*"%string|go "/"%string|go "mod"%string|go "pi"%string|go "sum"%string|go "avg"%string|go "sqrt"%string] end.
Example C107_case : complex_context PropComplex.no_clib no_random std_env true implicit_config = Ok PropComplexText.cx_d0 /\ same_but_variables PropComplexText.cx_d0 cx_x /\
  complex_known cx_tree /\ wf (to_ctx std_env cx_x) cx_tree /\ complex_text_of (to_ctx std_env cx_x) PropComplexText.read_complex cx_tree (lit cx_text) /\ complex_plain cx_tree /\ proper_library flat_clib /\
  fst (eval (to_ctx std_env cx_x) PropComplexText.read_complex dsplitter true (lit cx_text) tt) = Ok (f_of 4728779608739021 (-50), f_of (-6079859496950170) (-50)) /\
  fst (eval (to_ctx std_env cx_x) PropComplexText.read_complex dsplitter true (lit "x mod (i - i)") tt) = Err DivisionByZero.
Proof.
  split; [apply complex_is|]. split; [repeat split; vm_compute; reflexivity|].
  split. { cbn [complex_known cx_tree cn]. repeat match goal with |- _ /\ _ => split end; try exact I; c_name. }
  split; [apply wfb_sound; vm_compute; reflexivity|]. split; [apply (complex_text_sound _ _ same_c same_c_ok); vm_compute; reflexivity|].
  split. { cbn [complex_plain cx_tree cn]. repeat match goal with |- _ /\ _ => split end; try exact I; apply reading_complex. }
  split; [split; [|split]; intros; split; apply one_number|]. split; vm_compute; reflexivity.
Qed.
