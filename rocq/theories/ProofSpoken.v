(** * Proofs about the texts of the errors of contexts, the server and the command line *)
From Coq Require Import List NArith ZArith Bool Arith Lia String.
From Verif Require Import ModelBase ModelContext ModelEvaluator ModelText ModelSplit ModelTokenizer ModelDefault ModelMessage ModelRepl ModelSpoken
  SpecLex SpecRepl SpecMessage ProofRepl ProofTok2 ProofMessage.
From Verif Require Import ModelServer SpecServer SpecSpoken ProofServer ModelJson.
Import ListNotations.
Local Open Scope string_scope.
Local Open Scope list_scope.

(** ** Names *)
Lemma check_same : forall kind name, heard (check_token_name_m kind name) = check_token_name name.
Proof. intros kind name. unfold check_token_name_m, check_token_name. destruct (trim name); [reflexivity|]. destruct (existsb is_whitespace name); [reflexivity|]. destruct (existsb is_control name); reflexivity. Qed.
Lemma check_not_dies : forall kind name, check_token_name_m kind name <> Dies.
Proof. intros kind name H. unfold check_token_name_m in H. destruct (trim name); [discriminate|]. destruct (existsb is_whitespace name); [discriminate|]. destruct (existsb is_control name); discriminate. Qed.

Definition word (kind : name_kind) : string := match kind with AVariable => "Variable" | AConstant => "Constant" | AOperator => "Operator" | AFunction => "Function" end.
Lemma word_is : forall kind, kind_word kind = lit (word kind). Proof. destruct kind; reflexivity. Qed.
Lemma any_iff : forall (f : char -> bool) s, existsb f s = true <-> exists c, In c s /\ f c = true.
Proof. intros f s. apply existsb_exists. Qed.
Lemma none_iff : forall (f : char -> bool) s, existsb f s = false <-> forall c, In c s -> f c = false.
Proof.
  intros f s. split.
  - intros H c I. destruct (f c) eqn:Q; [|reflexivity]. assert (X : existsb f s = true) by (apply existsb_exists; eauto). congruence.
  - intros H. destruct (existsb f s) eqn:Q; [|reflexivity]. apply existsb_exists in Q. destruct Q as (c & I & Q). rewrite (H c I) in Q. discriminate.
Qed.
Lemma check_bad : forall kind name k m, check_token_name_m kind name = Errs k m <-> bad_name (word kind) name k m.
Proof.
  intros kind name k m. unfold check_token_name_m. rewrite word_is. destruct (trim name) as [|c0 t0] eqn:T.
  - assert (B : blank name) by (apply trim_blank; exact T). split.
    + intros H. injection H as <- <-. apply empty_name. exact B.
    + intros H. inversion H as [_ X Y|NB _ X Y|NW [c [I C]] X Y]; subst; [reflexivity|contradiction|]. exfalso. unfold blank in B. rewrite Forall_forall in B. specialize (B c I). rewrite (NW c I) in B. discriminate.
  - assert (B : ~ blank name) by (intros B; apply trim_blank in B; congruence). destruct (existsb is_whitespace name) eqn:Hw.
    + pose proof (proj1 (any_iff _ _) Hw) as Hx. split.
      * intros H. injection H as <- <-. apply white_name; assumption.
      * intros H. inversion H as [X1 X Y|NB _ X Y|NW _ X Y]; subst; [contradiction|reflexivity|]. destruct Hx as (c & I & C). rewrite (NW c I) in C. discriminate.
    + pose proof (proj1 (none_iff _ _) Hw) as Hn. destruct (existsb is_control name) eqn:Hc.
      * pose proof (proj1 (any_iff _ _) Hc) as Hx. split.
        -- intros H. injection H as <- <-. apply control_name; assumption.
        -- intros H. inversion H as [X1 X Y|NB [c [I C]] X Y|NW _ X Y]; subst; [contradiction| |reflexivity]. rewrite (Hn c I) in C. discriminate.
      * pose proof (proj1 (none_iff _ _) Hc) as Hz. split; [discriminate|]. intros H. inversion H as [X1 X Y|NB [c [I C]] X Y|NW [c [I C]] X Y]; subst; [contradiction| |]; [rewrite (Hn c I) in C|rewrite (Hz c I) in C]; discriminate.
Qed.
Lemma check_good : forall kind name, check_token_name_m kind name = Says tt <-> good_name name.
Proof.
  intros kind name. unfold check_token_name_m, good_name. destruct (trim name) as [|c0 t0] eqn:T.
  - apply trim_blank in T. split; [discriminate|]. intros [N H]. exfalso. destruct name as [|c s]; [congruence|]. inversion T as [|? ? C _]; subst. rewrite (proj1 (H c (or_introl eq_refl))) in C. discriminate.
  - destruct (existsb is_whitespace name) eqn:Hw.
    + apply any_iff in Hw. destruct Hw as (c & I & C). split; [discriminate|]. intros [_ H]. rewrite (proj1 (H c I)) in C. discriminate.
    + destruct (existsb is_control name) eqn:Hc.
      * apply any_iff in Hc. destruct Hc as (c & I & C). split; [discriminate|]. intros [_ H]. rewrite (proj2 (H c I)) in C. discriminate.
      * split; [|reflexivity]. intros _. split; [intros ->; discriminate|]. intros c I. split; [exact (proj1 (none_iff _ _) Hw c I)|exact (proj1 (none_iff _ _) Hc c I)].
Qed.
Lemma good_not_bad : forall kind name k m, good_name name -> ~ bad_name (word kind) name k m.
Proof. intros kind name k m H B. apply check_bad in B. apply (check_good kind) in H. congruence. Qed.
Lemma validate_said : forall dbg kind name, (validate_m dbg kind name = Says tt /\ (dbg = true -> good_name name)) \/ (exists k m, validate_m dbg kind name = Errs k m /\ dbg = true /\ bad_name (word kind) name k m).
Proof.
  intros dbg kind name. unfold validate_m. destruct dbg; [|left; split; [reflexivity|discriminate]]. destruct (check_token_name_m kind name) as [[]|k m|] eqn:H.
  - left. split; [reflexivity|]. intros _. apply (check_good kind). exact H.
  - right. exists k, m. split; [reflexivity|]. split; [reflexivity|]. apply check_bad. exact H.
  - exfalso. exact (check_not_dies _ _ H).
Qed.
Lemma refuses_bad : forall dbg kind name taken a b k m k' m', bad_name (word kind) name k m -> dbg = true -> (refuses dbg (word kind) name taken a b k' m' <-> k' = k /\ m' = m).
Proof.
  intros dbg kind name taken a b k m k' m' B D. unfold refuses. split.
  - intros [[_ B']|[Gd _]]; [|exfalso; exact (good_not_bad kind name k m (Gd D) B)]. apply check_bad in B, B'. rewrite B in B'. injection B' as <- <-. auto.
  - intros [-> ->]. left. auto.
Qed.
Lemma refuses_good : forall dbg kind name taken a b k' m', (dbg = true -> good_name name) -> (refuses dbg (word kind) name taken a b k' m' <-> taken /\ k' = Unknown_ /\ m' = lit a ++ name ++ lit b).
Proof.
  intros dbg kind name taken a b k' m' Gd. unfold refuses. split; [|tauto]. intros [[D B]|H]; [exfalso; exact (good_not_bad kind name _ _ (Gd D) B)|tauto].
Qed.

Section Default.
Context {V W : Type}.
Variable E : env.
Variable dbg : bool.
Implicit Types d : dctx V W.

Lemma validate_same : forall kind name, heard (validate_m dbg kind name) = validate dbg name.
Proof. intros kind name. unfold validate_m, validate. destruct dbg; [apply check_same|reflexivity]. Qed.
Lemma register_same : forall A kind taken aliases (f : A) name m, (heard (fst (register_m E dbg kind taken aliases f name m)), snd (register_m E dbg kind taken aliases f name m)) = register E dbg aliases f name m.
Proof.
  intros A kind taken aliases f name m. unfold register_m, register. rewrite <- (validate_same kind). destruct (validate_m dbg kind name); cbn [hears heard fst snd]; try reflexivity.
  destruct (is_some _); [reflexivity|]. destruct (insert_aliases E aliases f m) as [[[]|k|] m']; reflexivity.
Qed.
Lemma set_variable_same : forall name v d, (heard (fst (set_variable_m E dbg name v d)), snd (set_variable_m E dbg name v d)) = set_variable E dbg name v d.
Proof.
  intros name v d. unfold set_variable_m, set_variable. rewrite <- (validate_same AVariable). destruct (validate_m dbg AVariable name); cbn [hears heard fst snd]; try reflexivity. destruct (existsb _ _); reflexivity.
Qed.
Lemma add_constant_same : forall name v d, (heard (fst (add_constant_m E dbg name v d)), snd (add_constant_m E dbg name v d)) = add_constant E dbg name v d.
Proof.
  intros name v d. unfold add_constant_m, add_constant. rewrite <- (validate_same AConstant). destruct (validate_m dbg AConstant name); cbn [hears heard fst snd]; try reflexivity. destruct (existsb _ _); reflexivity.
Qed.
Lemma registered : forall A kind taken aliases (f : A) name m k t m', insert_aliases E aliases f m <> (Err k, m') ->
  register_m E dbg kind (lit taken) aliases f name m = (Errs k t, m') <-> m' = m /\ refuses dbg (word kind) name (mget (key_match E) m name <> None) (String.append taken " named '") "' already exists" k t.
Proof.
  intros A kind taken aliases f name m k t m' NE. unfold register_m. destruct (validate_said dbg kind name) as [[-> Gd]|(k0 & m0 & -> & D & B)].
  - rewrite (refuses_good _ _ _ _ _ _ _ _ Gd). assert (La : forall a b, lit (String.append a b) = lit a ++ lit b) by (induction a as [|x a IH]; intros b; [reflexivity|cbn; f_equal; apply IH]). rewrite La, <- app_assoc.
    destruct (mget (key_match E) m name) as [y|]; cbn [is_some].
    + split; [intros H; injection H as <- <- <-; repeat split; discriminate|]. intros (-> & _ & -> & ->). reflexivity.
    + split; [|intros (_ & H & _); congruence]. destruct (insert_aliases E aliases f m) as [[[]|k1|] m1]; intros H; try discriminate. injection H as -> _ ->. exfalso. apply NE. reflexivity.
  - rewrite (refuses_bad _ _ _ _ _ _ _ _ _ _ B D). split; [intros H; injection H as <- <- <-; auto|]. intros (-> & -> & ->). reflexivity.
Qed.
Lemma insert_never : forall A aliases (f : A) m k m', insert_aliases E aliases f m <> (Err k, m').
Proof. intros A. induction aliases as [|a as' IH]; intros f m k m'; cbn [insert_aliases]; [discriminate|]. destruct (is_some _); [discriminate|apply IH]. Qed.
Lemma assigned : forall name v d k m d', set_variable_m E dbg name v d = (Errs k m, d') <->
  d' = d /\ refuses dbg "Variable" name (exists x y, In (x, y) (d_consts d) /\ eq_ignore_case E x name = true) "Invalid variable name, a constant named `" "` exists" k m.
Proof.
  intros name v d k m d'. change "Variable" with (word AVariable). unfold set_variable_m. destruct (validate_said dbg AVariable name) as [[-> Gd]|(k0 & m0 & -> & D & B)].
  - rewrite (refuses_good _ _ _ _ _ _ _ _ Gd). destruct (existsb _ (d_consts d)) eqn:X.
    + apply existsb_exists in X. destruct X as ([x y] & I & Q). split; [intros H; injection H as <- <- <-; repeat split; eauto|]. intros (-> & _ & -> & ->). reflexivity.
    + split; [discriminate|]. intros (_ & (x & y & I & Q) & _). exfalso. assert (Y : existsb (fun p => eq_ignore_case E (fst p) name) (d_consts d) = true) by (apply existsb_exists; exists (x, y); auto). congruence.
  - rewrite (refuses_bad _ _ _ _ _ _ _ _ _ _ B D). split; [intros H; injection H as <- <- <-; auto|]. intros (-> & -> & ->). reflexivity.
Qed.
Lemma added : forall name v d k m d', add_constant_m E dbg name v d = (Errs k m, d') <->
  d' = d /\ refuses dbg "Constant" name (exists x y, In (x, y) (d_vars d) /\ eq_ignore_case E x name = true) "Invalid constant name, a variable named `" "` exists" k m.
Proof.
  intros name v d k m d'. change "Constant" with (word AConstant). unfold add_constant_m. destruct (validate_said dbg AConstant name) as [[-> Gd]|(k0 & m0 & -> & D & B)].
  - rewrite (refuses_good _ _ _ _ _ _ _ _ Gd). destruct (existsb _ (d_vars d)) eqn:X.
    + apply existsb_exists in X. destruct X as ([x y] & I & Q). split; [intros H; injection H as <- <- <-; repeat split; eauto|]. intros (-> & _ & -> & ->). reflexivity.
    + split; [discriminate|]. intros (_ & (x & y & I & Q) & _). exfalso. assert (Y : existsb (fun p => eq_ignore_case E (fst p) name) (d_vars d) = true) by (apply existsb_exists; exists (x, y); auto). congruence.
  - rewrite (refuses_bad _ _ _ _ _ _ _ _ _ _ B D). split; [intros H; injection H as <- <- <-; auto|]. intros (-> & -> & ->). reflexivity.
Qed.
Lemma set_said : forall name v d, assignable E dbg d name -> exists o, set_variable_m E dbg name v d = (Says o, snd (set_variable E dbg name v d)).
Proof.
  intros name v d A. destruct (set_ok E dbg name v d A) as (d' & S & _). pose proof (set_variable_same name v d) as H. rewrite S in *. destruct (set_variable_m E dbg name v d) as [[o|k m|] d1]; cbn in H; try discriminate. injection H as _ <-. exists o. reflexivity.
Qed.
Lemma set_refused : forall name v d, ~ assignable E dbg d name -> exists k m, set_variable_m E dbg name v d = (Errs k m, d).
Proof.
  intros name v d A. destruct (set_not_ok E dbg name v d A) as (k & S). pose proof (set_variable_same name v d) as H. rewrite S in H. destruct (set_variable_m E dbg name v d) as [[o|k1 m|] d1]; cbn in H; try discriminate. injection H as _ <-. eauto.
Qed.
End Default.

(** ** Requests *)
Section Typed.
Context {D V W : Type}.
Variable sv : service D W.
Variable E : env.
Variable dbg : bool.
Variable read parse : str -> option V.
Variable show : V -> str.
Variable g : tongue V W.
Notation acceptable := (accepted sv E dbg read).
Notation set_all_m := (set_variables_m E dbg read (s_show_f64 sv) g).
Notation set_all := (set_variables (W := W) E dbg read (s_show_f64 sv)).

Lemma set_all_same : forall vars d, match set_all vars d, set_all_m vars d with
  | Ok (inl d1), Ok (inl d2) => d1 = d2 | Ok (inr x), Ok (inr _) => forall t, x <> Text t | Panic, Panic => True | _, _ => False end.
Proof.
  induction vars as [|[n t] vars IH]; intros d; cbn [set_variables set_variables_m]; [reflexivity|]. destruct (read _) as [x|]; [|intros t0; discriminate].
  pose proof (set_variable_same E dbg n x d) as S. destruct (set_variable_m E dbg n x d) as [[o|k m|] d1]; cbn [hears heard fst snd] in S; rewrite <- S; [apply IH|intros t0; discriminate|exact I].
Qed.
Lemma set_all_refused : forall before p after d, Forall (acceptable d) before -> ~ acceptable d p -> exists m, set_all_m (before ++ p :: after) d = Ok (inr m) /\ variable_refused sv E dbg read g d p m.
Proof.
  induction before as [|[n t] before IH]; intros [x u] after d F N; cbn [app set_variables_m]; rewrite text_is.
  - unfold variable_refused. cbn [fst snd]. destruct (read (value_text sv u)) as [v|] eqn:R; [|eexists; split; [reflexivity|auto]].
    assert (A : ~ assignable E dbg d x) by (intros A; apply N; split; [exact A|cbn [snd]; congruence]).
    destruct (set_refused E dbg x v d A) as (k & m & H). rewrite H. exists m. split; [reflexivity|]. right. split; [discriminate|]. exists k. apply assigned in H. apply H.
  - inversion F as [|? ? [A Hv] F']; subst. cbn [fst snd] in A, Hv. destruct (read (value_text sv t)) as [v|] eqn:R; [|congruence]. destruct (set_said E dbg n v d A) as (o & ->).
    destruct (set_ok E dbg n v d A) as (d1 & S & Sm & _). rewrite S. cbn [snd]. destruct (IH (x, u) after d1) as (m & H & Hr).
    + eapply Forall_impl; [|exact F']. intros p Hp. apply (same_acceptable sv E dbg read d d1 p Sm), Hp.
    + intros Hp. apply N. apply (same_acceptable sv E dbg read d d1 _ Sm), Hp.
    + exists m. split; [exact H|]. unfold variable_refused in *. destruct Sm as (Sc & _). rewrite Sc in Hr. exact Hr.
Qed.
Notation typed_m := (eval_typed_m E dbg read parse show (s_show_f64 sv) g).
Notation typed := (eval_typed (W := W) E dbg read parse show (s_show_f64 sv)).
Lemma typed_same : forall context rules vars e w, unworded (typed context rules vars e w) (typed_m context rules vars e w).
Proof.
  intros context rules vars e w. unfold eval_typed, eval_typed_m. destruct context as [d|k|]; [|reflexivity..]. pose proof (set_all_same (match vars with Some l => l | None => [] end) d) as S.
  destruct (set_variables _ _ _ _ _ d) as [[d1|x]|k|]; destruct (set_variables_m _ _ _ _ _ _ d) as [[d2|m]|k2|]; try contradiction; [subst d2|split; [exact S|reflexivity]|reflexivity].
  pose proof (eval_same (to_ctx E d1) (t_voice g) dbg parse (split_into_tokens rules) e w) as H.
  destruct (eval_m _ _ _ _ _ _ _) as [[v|k m|] w1]; cbn [hears heard fst snd] in H; rewrite <- H; unfold unworded; [split; reflexivity|split; [intros t0; discriminate|reflexivity]|reflexivity].
Qed.
Lemma typed_m_ok : forall d rules vars e w, Forall (acceptable d) (match vars with Some l => l | None => [] end) -> NoDup (map fst (match vars with Some l => l | None => [] end)) ->
  exists d', with_variables sv E read d (match vars with Some l => l | None => [] end) d' /\ typed_m (Ok d) rules vars e w = answer_of show (eval_m (to_ctx E d') (t_voice g) dbg parse (split_into_tokens rules) e w).
Proof.
  intros d rules vars e w F N. unfold eval_typed_m. destruct (set_all_ok sv E dbg read _ d F) as (d' & X & S & K1 & K2). exists d'. split; [split; [exact S|]; split; [exact K1|apply K2, N]|].
  pose proof (set_all_same (match vars with Some l => l | None => [] end) d) as Z. rewrite X in Z. destruct (set_variables_m _ _ _ _ _ _ d) as [[d2|m]|k2|]; try contradiction. subst d2.
  destruct (eval_m _ _ _ _ _ _ _) as [[v|k m|] w1]; reflexivity.
Qed.
Lemma cli_same : forall context rules e w, (heard (fst (cli_typed_m E dbg parse show g context rules e w)), snd (cli_typed_m E dbg parse show g context rules e w)) = cli_typed E dbg parse show context rules e w.
Proof.
  intros context rules e w. unfold cli_typed_m, cli_typed. destruct context as [d|k|]; try reflexivity. rewrite <- (eval_same (to_ctx E d) (t_voice g) dbg parse (split_into_tokens rules) e w).
  destruct (eval_m _ _ _ _ _ _ _) as [[v|k m|] w1]; reflexivity.
Qed.
(** ** The prompt *)
Lemma line_same : forall b s d w out, let r := loop_line_m E dbg parse b g s (d, w, out) in
  (fst r, (fst (fst (snd r)), snd (fst (snd r)), map unworded_line (snd (snd r)))) = loop_line E dbg parse b s (d, w, map unworded_line out).
Proof.
  intros b s d w out. cbv zeta. unfold loop_line_m, loop_line. destruct (str_eqb (trim s) (lit "exit")); [reflexivity|]. destruct (existsb _ (trim s)).
  - destruct (map trim (split_on 61%N (trim s))) as [|x [|y [|]]]; cbv zeta; cbn [fst snd]; rewrite ?map_app; try reflexivity.
    destruct (parse y) as [v|]; cbn [fst snd]; rewrite ?map_app; try reflexivity. pose proof (set_variable_same E dbg x v d) as S. destruct (set_variable_m E dbg x v d) as [[o|k m|] d1]; cbn [hears heard fst snd] in S; rewrite <- S; cbn [fst snd]; rewrite ?map_app; reflexivity.
  - rewrite <- (eval_same (to_ctx E d) (t_voice g) dbg parse (split_into_tokens (repl_splitter b)) (trim s) w). destruct (eval_m _ _ _ _ _ _ _) as [[v|k m|] w1]; cbn [hears heard fst snd]; rewrite ?map_app; try reflexivity.
    pose proof (set_variable_same E dbg result_name v d) as S. destruct (set_variable_m E dbg result_name v d) as [[o|k m|] d1]; cbn [hears heard fst snd] in S; rewrite <- S; cbn [fst snd]; rewrite ?map_app; reflexivity.
Qed.
Lemma line_assign_m : forall b a r (d : dctx V W) w out, no_equals a -> no_equals r ->
  loop_line_m E dbg parse b g (a ++ 61%N :: r) (d, w, out) =
  match parse (trim r) with
  | Some v => match set_variable_m E dbg (trim a) v d with
              | (Says _, d') => (Ok FNone, (d', w, out))
              | (Errs _ m, d') => (Ok FNone, (d', w, out ++ [Printed_error m]))
              | (Dies, d') => (Panic, (d', w, out))
              end
  | None => (Ok FNone, (d, w, out ++ [Printed_error (t_unread g (trim r))]))
  end.
Proof.
  clear sv read show. intros b0 a b d w out Ha Hb. unfold loop_line_m. assert (T : trim (a ++ 61%N :: b) = trim_start a ++ 61%N :: trim_end b) by (apply trim_around; reflexivity).
  assert (I : In 61%N (trim (a ++ 61%N :: b))) by (rewrite T; apply in_or_app; right; left; reflexivity).
  rewrite (not_exit _ I). apply has_equals in I. rewrite I, T. rewrite split_on_app by (intros X; apply Ha; apply trim_start_in; exact X).
  rewrite split_on_none by (intros X; apply Hb; apply trim_end_in; exact X). cbn [map]. rewrite trim_of_start, trim_of_end. reflexivity.
Qed.
Lemma line_many_m : forall b0 a b c (d : dctx V W) w out, loop_line_m E dbg parse b0 g (a ++ 61%N :: b ++ 61%N :: c) (d, w, out) = (Ok FNone, (d, w, out ++ [Printed_error (lit "Invalid assignment")])).
Proof.
  clear sv read show. intros b0 a b c d w out. unfold loop_line_m. set (s := a ++ 61%N :: b ++ 61%N :: c).
  assert (T : trim s = trim_start a ++ 61%N :: (b ++ 61%N :: trim_end c)).
  { unfold s. assert (X : a ++ 61%N :: b ++ 61%N :: c = (a ++ 61%N :: b) ++ 61%N :: c) by (rewrite <- app_assoc; reflexivity). rewrite X.
    rewrite trim_around by reflexivity. rewrite trim_start_stop by reflexivity. rewrite <- app_assoc. reflexivity. }
  assert (I : In 61%N (trim s)) by (rewrite T; apply in_or_app; right; left; reflexivity). rewrite (not_exit _ I). pose proof I as I'. apply has_equals in I'. rewrite I'.
  assert (L : 3 <= List.length (split_on 61%N (trim s))).
  { rewrite T. assert (C : forall x y, List.length (split_on 61%N (x ++ 61%N :: y)) = List.length (split_on 61%N x) + List.length (split_on 61%N y)).
    { induction x as [|h x IH]; intros y; [reflexivity|]. cbn [app split_on]. unfold char_eqb. destruct (N.eqb h 61); [cbn [List.length]; rewrite IH; reflexivity|].
      specialize (IH y). destruct (split_on_nonempty 61%N (x ++ 61%N :: y)) as (p & ps & E1). destruct (split_on_nonempty 61%N x) as (q & qs & E2). rewrite E1, E2 in *. cbn [List.length] in *. exact IH. }
    rewrite !C. destruct (split_on_nonempty 61%N (trim_start a)) as (? & ? & ->). destruct (split_on_nonempty 61%N b) as (? & ? & ->). destruct (split_on_nonempty 61%N (trim_end c)) as (? & ? & ->). cbn [List.length]. lia. }
  destruct (split_on 61%N (trim s)) as [|p [|q [|r l]]]; cbn [List.length] in L; try lia. reflexivity.
Qed.
End Typed.

Section Server.
Context {D W : Type}.
Variable sv : service D W.
Variable G : tongues D W.
Variable E : env.
Variable dbg : bool.
Lemma spoken_serves : forall t V (k : kind V W) g, spoken sv G E dbg t V k g -> serves sv E dbg t V k.
Proof. intros t V k g []; constructor. Qed.
Lemma all_spoken : forall t, exists V (k : kind V W) g, spoken sv G E dbg t V k g.
Proof. intros []; eexists _, _, _; constructor. Qed.
Lemma dispatch_m : forall t V (k : kind V W) g, spoken sv G E dbg t V k g -> forall q w, asked q = t ->
  eval_expression_m sv G E dbg q w = eval_typed_m E dbg (k_read k) (k_parse k) (k_show k) (s_show_f64 sv) g (k_context k (server_settings t)) (k_rules k) (q_variables q) (q_expression q) w.
Proof. intros t V k g S q w H. unfold eval_expression_m. unfold asked in H. rewrite H. destruct S; reflexivity. Qed.
Lemma expression_same : forall q w, unworded (eval_expression sv E dbg q w) (eval_expression_m sv G E dbg q w).
Proof.
  intros q w. destruct (all_spoken (asked q)) as (V & k & g & S). rewrite (dispatch sv E dbg _ V k (spoken_serves _ _ _ _ S) q w eq_refl), (dispatch_m _ V k g S q w eq_refl). apply typed_same.
Qed.
(** The bytes are those of the model of ModelJson, if the errors are put into these words. *)
Lemma post_same : forall number otherwise say body query w, ((forall q, receive number otherwise body <> Received q) -> forall s, say (Text s) = s) ->
  (forall q x m w', receive number otherwise body = Received q -> eval_expression sv E dbg q w = (Ok (inr x), w') -> eval_expression_m sv G E dbg q w = (Ok (inr m), w') -> say x = m) ->
  post_eval_m sv G E dbg number otherwise body query w = post_eval sv E dbg number otherwise say body query w.
Proof.
  intros number otherwise say body query w St Se. unfold post_eval_m, post_eval. destruct (receive number otherwise body) as [|path|q] eqn:R.
  - cbn [endpoint]. unfold ret, body_bytes, with_error, evaluated_json. cbn [e_result e_error option_map]. rewrite St by (intros q; discriminate). reflexivity.
  - cbn [endpoint]. unfold ret, body_bytes, with_error, evaluated_json. cbn [e_result e_error option_map]. rewrite St by (intros q; discriminate). reflexivity.
  - cbn [endpoint]. unfold bind, ret. pose proof (expression_same q w) as S. destruct (eval_expression sv E dbg q w) as [[[s|x]|k|] w1] eqn:H1; destruct (eval_expression_m sv G E dbg q w) as [[[s2|m]|k2|] w2] eqn:H2; cbn [unworded] in S; try contradiction.
    + destruct S as [<- <-]. unfold respond. destruct (only_result query) as [[|]|]; reflexivity.
    + destruct S as [_ <-]. unfold respond. rewrite (Se q x m w1 eq_refl eq_refl eq_refl) || pose proof (Se q x m w1 eq_refl H1 H2) as Q; unfold body_bytes, evaluated_json, evaluated_of; cbn [e_result e_error option_map]; rewrite ?Q; reflexivity.
    + subst. reflexivity.
Qed.
End Server.
