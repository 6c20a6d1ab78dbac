(** * C105: the floating-point contexts are the calculator of SpecDoubleCalc, for the library, the server and the command line *)
From Coq Require Import List NArith ZArith QArith Qabs Bool Arith Lia Lqa String.
From Coq Require Import Floats.SpecFloat.
From Verif Require Import ModelServer ModelBase ModelContext ModelEvaluator ModelText ModelDefault ModelFloat ModelGamma ModelNum ModelOps ModelSplit ModelTokenizer ModelStd
  SpecExpr SpecText SpecOps SpecLex SpecParse SpecTokenizer SpecRepl SpecDecimal SpecDouble SpecFunctions SpecRound SpecCalculator SpecDoubleCalc ProofText ProofSplit ProofTok2 ProofWf ProofRound3 ProofDoubleCalc ProofDoubleCalc2
  PropLex PropDouble PropRound.
From Verif Require PropServer PropSource PropComplex PropOps ProofDecRef.
From Verif Require Import SpecServer.
Import ListNotations.
Local Open Scope Z_scope.

(** The text of an expression evaluates, in a default context over [f64] with any variables, to a result that the calculator allows. *)
Theorem C105_text : forall W fuel L (rnd : W -> f64 * W) (checked docs : bool) E dbg cf d d',
  (if checked then checked_context (f64_num fuel) L rnd docs E dbg cf else unchecked_context (f64_num fuel) L rnd E dbg cf) = Ok d -> same_but_variables d d' ->
  forall parse e s w, known checked docs e -> wf (to_ctx E d') e -> text_of (to_ctx E d') parse e s ->
  exists r, worth L (get_variable (to_ctx E d')) fuel checked docs e r /\ eval (to_ctx E d') parse dsplitter dbg s w = (r, w).
Proof.
  intros W fuel L rnd checked docs E dbg cf d d' H Hs parse e s w K Hwf Ht. rewrite (C16_eval_text _ _ _ parse dbg e s w Hwf Ht).
  exact (double_said fuel L rnd checked docs E dbg cf d d' H Hs e K w).
Qed.
Print Assumptions C105_text.

(** Without factorials, and if the platform's functions, the numerals and the variables are doubles, it allows one result only. *)
Theorem C105_determined : forall L vars turns checked docs e, proper_platform L -> (forall x v, vars x = Some v -> a_number v) -> plain e ->
  forall r1 r2, worth L vars turns checked docs e r1 -> worth L vars turns checked docs e r2 -> r1 = r2.
Proof. intros L vars turns checked docs e HL HV P. apply (worth_decided L HL checked docs vars HV turns e P). Qed.
Print Assumptions C105_determined.

(** A request for floating-point numbers whose variables are accepted is answered with such a result. *)
Theorem C105_server : forall D W (sv : service D W) E dbg q, q_type q = Some NFloat -> NoDup (map fst (given q)) ->
  exists d, checked_floats sv E dbg (server_settings NFloat) = Ok d /\ (Forall (accepted sv E dbg (s_read_f64 sv) d) (given q) -> forall w,
  exists d', with_variables sv E (s_read_f64 sv) d (given q) d' /\
  forall e, known true (s_docs sv) e -> wf (to_ctx E d') e -> text_of (to_ctx E d') (s_read_f64 sv) e (q_expression q) ->
  exists r, worth (s_libm sv) (get_variable (to_ctx E d')) (s_float_fuel sv) true (s_docs sv) e r /\ eval_expression sv E dbg q w = answer_to (s_show_f64 sv) (r, w)).
Proof.
  intros D W sv E dbg q Hq Nd. assert (Ha : asked q = NFloat) by (unfold asked; rewrite Hq; reflexivity).
  destruct (PropServer.C37_values D W sv E dbg q NFloat f64 _ Ha (Serves_float sv E dbg) Nd) as (d & Hd & Hno & X). cbn [k_context k_read k_show k_parse k_rules float_kind] in *.
  exists d. split; [exact Hd|]. intros Ok_ w. destruct (X w) as [Y _]. destruct (Y Ok_) as (d' & Hd' & R). clear X Y.
  exists d'. split; [exact Hd'|]. intros e K Hwf Ht. rewrite R. change (split_into_tokens default_splitter) with dsplitter.
  destruct (C105_text W (s_float_fuel sv) (s_libm sv) (s_random sv) true (s_docs sv) E dbg _ d d' Hd (proj1 Hd') (s_read_f64 sv) e (q_expression q) w K Hwf Ht) as (r & R1 & ->). eauto.
Qed.
Print Assumptions C105_server.

(** The command line evaluates floating-point numbers without the six functions (C61). *)
Theorem C105_command_line : forall D W (sv : service D W) E dbg, exists d, unchecked_floats sv E dbg (command_line_settings NFloat) = Ok d /\
  forall e s w, known false true e -> wf (to_ctx E d) e -> text_of (to_ctx E d) (s_read_f64 sv) e s ->
  exists r, worth (s_libm sv) (fun _ => None) (s_float_fuel sv) false true e r /\ cli_eval sv E dbg NFloat s w = printed (s_show_f64 sv) (r, w).
Proof.
  intros D W sv E dbg. destruct (PropServer.C61_contexts D W sv E dbg NFloat f64 _ (Runs_float sv E dbg)) as (d & Hd & Hno & R & _). cbn [k_context k_show k_parse k_rules unchecked_float_kind] in *.
  exists d. split; [exact Hd|]. intros e s w K Hwf Ht. rewrite R. change (split_into_tokens default_splitter) with dsplitter.
  destruct (C105_text W (s_float_fuel sv) (s_libm sv) (s_random sv) false true E dbg _ d d Hd ltac:(repeat split) (s_read_f64 sv) e s w K Hwf Ht) as (r & R1 & ->). exists r. split; [|reflexivity].
  revert R1. apply worth_vars. exact Hno.
Qed.
Print Assumptions C105_command_line.

(** ** Cases *)
Definition same_f (x y : f64) : bool :=
  match x, y with
  | S754_zero s, S754_zero t | S754_infinity s, S754_infinity t => Bool.eqb s t
  | S754_nan, S754_nan => true
  | S754_finite s m e, S754_finite t n f => Bool.eqb s t && Pos.eqb m n && Z.eqb e f
  | _, _ => false
  end.
Lemma same_f_ok : forall x y, same_f x y = true -> x = y.
Proof.
  intros [s|s| |s m e] [t|t| |t n f] H; try discriminate; try reflexivity; cbn [same_f] in H; rewrite ?andb_true_iff in H; [apply eqb_prop in H; congruence..|].
  destruct H as [[A B] C]. apply eqb_prop in A. apply Pos.eqb_eq in B. apply Z.eqb_eq in C. congruence.
Qed.
(** The text [round(2(x + 0.5) / 3 - sum(1, AVG(1, 2), x) mod 2) * SQRT(16) - min(Pi, E)] with [x = 2.5] is worth [4 - E]. *)
Definition dd' : dctx f64 unit := snd (set_variable std_env true (lit "x") (f_of 5 (-1)) f_ctx).
Definition fn (s : string) : expr f64 := ENum (PropSource.read_double (lit s)).
Definition db_tree : expr f64 :=
  EBin (lit "-") (EBin (lit "*") (ECall (lit "round") Parenthesis [EBin (lit "-") (EBin (lit "/") (EMul (fn "2") (EGroup Parenthesis (EBin (lit "+") (EVar (lit "x")) (fn "0.5")))) (fn "3"))
      (EBin (lit "mod") (ECall (lit "sum") Parenthesis [fn "1"; ECall (lit "AVG") Parenthesis [fn "1"; fn "2"]; EVar (lit "x")]) (fn "2"))])
    (ECall (lit "SQRT") Parenthesis [fn "16"])) (ECall (lit "min") Parenthesis [EConst (lit "Pi"); EConst (lit "E")]).
Definition db_text : string := "round(2(x + 0.5) / 3 - sum(1, AVG(1, 2), x) mod 2) * SQRT(16) - min(Pi, E)".
Ltac a_name := match goal with |- one_of _ _ => let rec go k := first [exists k; split; [cbn; tauto|reflexivity]] in
  first [go "+"%string|go "-"%string|go "*"%string|go "/"%string|go "mod"%string|go "pi"%string|go "e"%string|go "round"%string|go "sum"%string|go "avg"%string|go "sqrt"%string|go "min"%string|go "!"%string] end.
Definition flat_libm : libm := Libm (fun _ _ => f_one) (fun _ _ => f_one) (fun _ _ => f_one) (fun _ _ => f_one).
Example C105_case : checked_context (f64_num 100) no_libm no_random true std_env true implicit_config = Ok f_ctx /\ same_but_variables f_ctx dd' /\ known true true db_tree /\ wf (to_ctx std_env dd') db_tree /\
  text_of (to_ctx std_env dd') PropSource.parse_double db_tree (lit db_text) /\ plain db_tree /\ proper_platform flat_libm /\
  fst (eval (to_ctx std_env dd') PropSource.parse_double dsplitter true (lit db_text) tt) = Ok (f_sub (f_of_Z 4) f_E) /\
  fst (eval (to_ctx std_env dd') PropSource.parse_double dsplitter true (lit "3! / (x - x)") tt) = Err DivisionByZero.
Proof.
  split; [unfold f_ctx; rewrite (ProofCtx.checked_is (f64_num 100) no_libm no_random true std_env true f_PI f_E eq_refl eq_refl); reflexivity|]. split; [repeat split; vm_compute; reflexivity|].
  split. { cbn [known db_tree fn]. repeat match goal with |- _ /\ _ => split end; try exact I; a_name. }
  split; [apply wfb_sound; vm_compute; reflexivity|]. split; [apply (text_sound same_f same_f_ok); vm_compute; reflexivity|].
  split. { assert (Nn : forall s, a_number (PropSource.read_double s)). { intros s. destruct (PropSource.numeral_value s) as [q|] eqn:Q; unfold PropSource.read_double; rewrite Q; [apply (rounds_number q), PropSource.nearest_rounds|]. intros _. exists 0%Q. reflexivity. }
    cbn [plain db_tree fn]. repeat match goal with |- _ /\ _ => split end; try exact I; apply Nn. }
  split. { repeat split; intros; apply one_number. }
  split; vm_compute; reflexivity.
Qed.
