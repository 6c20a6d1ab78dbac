(** * Messages: the symbols that are open, and functions with their arguments *)
From Coq Require Import List NArith ZArith Bool Arith Lia String.
From Verif Require Import ModelBase ModelContext ModelEvaluator ModelText ModelStr ModelMessage
  SpecExpr SpecGrammar SpecTokens SpecMessage ProofTokens ProofTokens2.
Import ListNotations.
Local Open Scope list_scope.

Section Frame.
Context {V W : Type}.
Variable c : ctx V W.
Variable dbg : bool.
Notation tok := (token V).
Notation yard := (yard (V := V)).

Definition opener (t : tok) : bool := match t with TOpen _ => true | _ => false end.
Definition named (pre : list tok) : bool := match rev pre with TFunction _ :: _ => true | _ => false end.
Lemma named_snoc : forall pre t, named (pre ++ [t]) = is_function t.
Proof. intros pre t. unfold named. rewrite rev_app_distr. destruct t; reflexivity. Qed.
Lemma named_iff : forall pre, named pre = true <-> exists l f, pre = l ++ [TFunction f].
Proof.
  intros pre. split.
  - unfold named. destruct (rev pre) as [|t r] eqn:E; [discriminate|]. apply (f_equal (@rev tok)) in E. rewrite rev_involutive in E. cbn in E. destruct t; try discriminate. eauto.
  - intros (l & f & ->). apply named_snoc.
Qed.
Lemma still_ext : forall (pre : list tok) os b, still_open pre os -> balanced b -> still_open (pre ++ b) os.
Proof. intros pre os b H B. destruct H; [constructor; apply bal_app; assumption|]. rewrite <- app_assoc. cbn [app]. constructor; auto. apply bal_app; assumption. Qed.
Lemma still_step : forall (pre : list tok) os t, still_open pre os -> is_bracket t = false -> still_open (pre ++ [t]) os.
Proof. intros. apply still_ext; [assumption|]. apply bal_other. assumption. Qed.
Lemma still_none : forall pre : list tok, still_open pre [] -> balanced pre.
Proof. intros pre H. inversion H; subst. assumption. Qed.

(** The operators, with the open symbols. *)
Inductive lines : list tok -> list (char * bool) -> Prop :=
| l_none : lines [] []
| l_other : forall t ops os, opener t = false -> lines ops os -> lines (t :: ops) os
| l_open : forall o (b : bool) ops os, lines ops os -> (b = true -> exists f ops', ops = TFunction f :: ops') -> lines (TOpen o :: ops) ((o, b) :: os).
Lemma lines_skip : forall ps ops os, lines (ps ++ ops) os -> (forall s, ~ In (TOpen s) ps) -> lines ops os.
Proof.
  induction ps as [|t ps IH]; intros ops os H N; [exact H|]. cbn [app] in H. inversion H; subst.
  - apply (IH ops os H4). intros s X. apply (N s). right. exact X.
  - exfalso. apply (N o). left. reflexivity.
Qed.
Lemma lines_open : forall o ops os, lines (TOpen o :: ops) os -> exists b os', os = (o, b) :: os' /\ lines ops os' /\ (b = true -> exists f ops', ops = TFunction f :: ops').
Proof. intros o ops os H. inversion H; subst; [discriminate|eauto 6]. Qed.
Lemma lines_other : forall t ops os, lines (t :: ops) os -> opener t = false -> lines ops os.
Proof. intros t ops os H N. inversion H; subst; [assumption|discriminate]. Qed.
Lemma lines_none : forall ops os, lines ops os -> (forall s, ~ In (TOpen s) ops) -> os = [].
Proof. intros ops os H. induction H as [|t ops os N H IH|o b ops os H IH F]; intros X; [reflexivity| |exfalso; apply (X o); left; reflexivity]. apply IH. intros s Y. apply (X s). right. exact Y. Qed.
Lemma lines_called : forall ops os, lines ops os -> filter is_function ops = [] -> forall o, ~ In (o, true) os.
Proof.
  intros ops os H. induction H as [|t ops os N H IH|o b ops os H IH F]; intros X o'; [intros []| |].
  - apply IH. cbn [filter] in X. destruct (is_function t); [discriminate|exact X].
  - intros [Y|Y]; [|exact (IH X o' Y)]. injection Y as _ ->. destruct (F eq_refl) as (f & ops' & ->). discriminate X.
Qed.

Fixpoint guarded (above : bool) (ops : list tok) : bool :=
  match ops with [] => true | TFunction _ :: r => above && guarded false r | TOpen _ :: r => guarded true r | _ :: r => guarded false r end.
Lemma guarded_skip : forall ps ops, guarded false (ps ++ ops) = true -> (forall s, ~ In (TOpen s) ps) -> guarded false ops = true /\ filter is_function ps = [].
Proof.
  induction ps as [|t ps IH]; intros ops H N; [split; [exact H|reflexivity]|]. assert (N' : forall s, ~ In (TOpen s) ps) by (intros s X; apply (N s); right; exact X).
  destruct t; cbn [app guarded] in H; try (destruct (IH ops H N') as [A B]; split; [exact A|exact B]); [discriminate|]. exfalso. apply (N c0). left. reflexivity.
Qed.
Lemma guarded_more : forall ops, guarded false ops = true -> guarded true ops = true.
Proof. intros [|[] ops] H; try exact H; try reflexivity. discriminate. Qed.
Lemma guarded_less : forall ops, guarded true ops = true -> (match ops with TFunction _ :: _ => False | _ => True end) -> guarded false ops = true.
Proof. intros [|[] ops] H N; try exact H. contradiction. Qed.
Lemma reg_plain : forall (ps : list tok) b, filter is_function ps = [] -> Forall plain_token ps -> reg b ps = Some b.
Proof. induction ps as [|t ps IH]; intros b F P; [reflexivity|]. inversion P; subst. destruct t; cbn [reg]; try (apply IH; assumption); [discriminate F|contradiction]. Qed.

Record frame (pre rest : list tok) (y : yard) : Prop := {
  fr_open : exists os, still_open pre os /\ lines (y_ops y) os;
  fr_top : named pre = true -> exists f ops, y_ops y = TFunction f :: ops;
  fr_count : (List.length (filter is_function (y_ops y)) <= List.length (y_argc y))%nat;
  fr_out : forall o, ~ In (TOpen o) (y_out y);
  fr_plain : Forall plain_token (y_ops y);
  fr_calls : custom_function_call (cfg c) = false -> reg false (y_out y) = Some false /\ guarded (named pre) (y_ops y) = true /\ (named pre = true -> exists r, rest = TOpen 40%N :: r \/ rest = TClose 40%N :: r) }.

Lemma filter_drop : forall (ps ops : list tok), (List.length (filter is_function ops) <= List.length (filter is_function (ps ++ ops)))%nat.
Proof. intros ps ops. rewrite filter_app, app_length. lia. Qed.

Lemma step_frame : forall toks pre t rest y y', toks = pre ++ t :: rest -> frame pre (t :: rest) y -> yard_step c dbg toks (List.length pre) t (hd_error rest) y = Ok y' -> frame (pre ++ [t]) rest y'.
Proof.
  intros toks pre t rest y y' Et [(os & Ho & Hl) Ht Hc Hn Hp Hf] H.
  (* moving [ps] from the stack to the output *)
  assert (Move : forall ps ops (more : list tok), is_bracket t = false -> is_function t = false -> y_ops y = ps ++ ops -> (forall s, ~ In (TOpen s) ps) -> filter is_function more = [] -> Forall plain_token more -> (forall s, ~ In (TOpen s) more) ->
    y_out y' = y_out y ++ ps ++ more -> y_ops y' = ops -> List.length (y_argc y') = List.length (y_argc y) -> frame (pre ++ [t]) rest y').
  { intros ps ops more B F E N M1 M2 M3 Eo Es Ea. rewrite E in *. assert (Nm : custom_function_call (cfg c) = false -> named pre = false).
    { intros X. destruct (Hf X) as (_ & _ & Y). destruct (named pre); [|reflexivity]. destruct (Y eq_refl) as (r & [Z|Z]); injection Z as -> _; discriminate. }
    constructor; rewrite ?named_snoc, ?Eo, ?Es, ?Ea, ?F.
    - exists os. split; [apply still_step; assumption|exact (lines_skip _ _ _ Hl N)].
    - discriminate.
    - pose proof (filter_drop ps ops). lia.
    - intros o X. apply in_app_or in X. destruct X as [X|X]; [exact (Hn o X)|]. apply in_app_or in X. destruct X as [X|X]; [exact (N o X)|exact (M3 o X)].
    - exact (Forall_app_r _ _ _ Hp).
    - intros X. destruct (Hf X) as (R & G & _). rewrite (Nm X) in G. destruct (guarded_skip _ _ G N) as [G1 G2]. split; [|split; [exact G1|discriminate]].
      rewrite reg_app, R, reg_app, (reg_plain ps), (reg_plain more); try assumption; [reflexivity|exact (Forall_app_l _ _ _ Hp)]. }
  assert (NoOpen : forall ps : list tok, Forall (fun t => match t with TFunction _ | TBinary _ => True | _ => False end) ps -> forall s, ~ In (TOpen s) ps).
  { intros ps F s X. rewrite Forall_forall in F. exact (F _ X). }
  assert (None_ : forall s, ~ In (TOpen s) (@nil tok)) by (intros s []).
  assert (Num : atom_token t = true -> y' = push_number c t y -> frame (pre ++ [t]) rest y').
  { intros At ->. destruct (push_number_inv c t y) as [E|(u & ops' & Eo & E)]; rewrite E in *.
    - apply (Move [] (y_ops y) [t]); try reflexivity; try exact None_; try (destruct t; discriminate || reflexivity); [constructor; [destruct t; discriminate || exact I|constructor]|].
      intros s [X|[]]. subst t. discriminate.
    - assert (N1 : forall s, ~ In (TOpen s) [TUnary u : tok]) by (intros s [X|[]]; discriminate).
      clear Move. (* the operand comes first *)
      assert (Nm : custom_function_call (cfg c) = false -> named pre = false).
      { intros X. destruct (Hf X) as (_ & _ & Y). destruct (named pre); [|reflexivity]. destruct (Y eq_refl) as (r & [Z|Z]); injection Z as -> _; discriminate. }
      rewrite Eo in *. constructor; cbn [y_out y_ops y_argc y_grp]; rewrite ?named_snoc.
      + exists os. split; [apply still_step; [exact Ho|destruct t; discriminate || reflexivity]|exact (lines_other _ _ _ Hl eq_refl)].
      + destruct t; discriminate.
      + exact Hc.
      + intros o X. apply in_app_or in X. destruct X as [X|[X|[X|[]]]]; [exact (Hn o X)|subst t; discriminate|discriminate].
      + inversion Hp; assumption.
      + intros X. destruct (Hf X) as (R & G & _). rewrite (Nm X) in G. split; [rewrite reg_app, R; destruct t; discriminate || reflexivity|]. split; [destruct t; discriminate || exact G|destruct t; discriminate]. }
  destruct t as [n|x|x|f|o|u|n|c0|c0|x|]; cbn [yard_step] in H; try (injection H as <-; apply Num; reflexivity); try discriminate.
  - destruct (_ && _) eqn:Q; [discriminate|]. injection H as <-. constructor; cbn [y_out y_ops y_argc y_grp]; rewrite ?named_snoc.
    + exists os. split; [apply still_step; auto|apply l_other; auto].
    + eauto.
    + cbn [filter is_function List.length]. lia.
    + exact Hn.
    + constructor; [exact I|exact Hp].
    + intros X. destruct (Hf X) as (R & G & Y). split; [exact R|]. rewrite X in Q. cbn [negb andb] in Q. cbn [guarded is_function andb].
      assert (Nm : named pre = false). { destruct (named pre); [|reflexivity]. destruct (Y eq_refl) as (r & [Z|Z]); discriminate Z. }
      rewrite Nm in G. split; [exact G|]. intros _. destruct rest as [|r0 rest]; [discriminate Q|]. cbn [hd_error] in Q. unfold contains_symbol in Q. destruct r0; try discriminate; apply negb_false_iff, N.eqb_eq in Q; subst; eauto.
  - apply push_binary_inv in H. destruct H as (_ & ps & ops & E & F & ->). cbn [y_out y_ops y_argc] in *.
    specialize (NoOpen ps F). assert (Nm : custom_function_call (cfg c) = false -> named pre = false).
    { intros X. destruct (Hf X) as (_ & _ & Y). destruct (named pre); [|reflexivity]. destruct (Y eq_refl) as (r & [Z|Z]); discriminate Z. }
    rewrite E in *. constructor; cbn [y_out y_ops y_argc y_grp]; rewrite ?named_snoc.
    + exists os. split; [apply still_step; auto|]. apply l_other; [reflexivity|]. exact (lines_skip _ _ _ Hl NoOpen).
    + discriminate.
    + cbn [filter is_function]. pose proof (filter_drop ps ops). lia.
    + intros o' X. apply in_app_or in X. destruct X as [X|X]; [exact (Hn o' X)|exact (NoOpen o' X)].
    + constructor; [exact I|exact (Forall_app_r _ _ _ Hp)].
    + intros X. destruct (Hf X) as (R & G & _). rewrite (Nm X) in G. destruct (guarded_skip _ _ G NoOpen) as [G1 G2]. split; [|split; [exact G1|discriminate]]. rewrite reg_app, R. apply reg_plain; [exact G2|exact (Forall_app_l _ _ _ Hp)].
  - apply push_unary_inv in H. destruct H as (_ & [->| ->]).
    + assert (Nm : custom_function_call (cfg c) = false -> named pre = false).
      { intros X. destruct (Hf X) as (_ & _ & Y). destruct (named pre); [|reflexivity]. destruct (Y eq_refl) as (r & [Z|Z]); discriminate Z. }
      constructor; cbn [y_out y_ops y_argc y_grp]; rewrite ?named_snoc.
      * exists os. split; [apply still_step; auto|]. apply l_other; [reflexivity|exact Hl].
      * discriminate.
      * exact Hc.
      * exact Hn.
      * constructor; [exact I|exact Hp].
      * intros X. destruct (Hf X) as (R & G & _). rewrite (Nm X) in G. repeat split; [exact R|exact G|discriminate].
    + apply (Move [] (y_ops y) [TUnary u]); try reflexivity; try exact None_; [repeat constructor|]. intros s [X|[]]. discriminate.
  - injection H as <-. constructor; cbn [y_out y_ops y_argc y_grp]; rewrite ?named_snoc.
    + exists ((c0, named pre) :: os). split; [|apply l_open; [exact Hl|exact Ht]]. apply opened; [exact Ho|constructor|apply named_iff].
    + discriminate.
    + exact Hc.
    + exact Hn.
    + constructor; [exact I|exact Hp].
    + intros X. destruct (Hf X) as (R & G & _). repeat split; [exact R| |discriminate]. cbn [guarded is_function]. destruct (named pre); [exact G|apply guarded_more, G].
  - apply step_close_inv in H. destruct H as (ps & o & ops & g & E & N & Hg & Hcl & D & _). subst c0. rewrite E in *.
    assert (Nm : custom_function_call (cfg c) = false -> named pre = false).
    { intros X. destruct (Hf X) as (_ & _ & Y). destruct (named pre); [|reflexivity]. destruct (Y eq_refl) as (r & [Z|Z]); (discriminate Z || (destruct g; discriminate Z)). }
    pose proof (lines_skip _ _ _ Hl N) as Hl'. apply lines_open in Hl'. destruct Hl' as (b & os' & -> & Hl' & Hb). inversion Ho as [|l0 os0 o0 b0 cd0 Ho' B0 C0]; subst.
    assert (St : still_open ((l0 ++ TOpen o :: b0) ++ [TClose (grouping_close g)]) os').
    { rewrite <- app_assoc. cbn [app]. apply still_ext; [exact Ho'|]. apply bal_wrap; assumption. }
    assert (Ps : custom_function_call (cfg c) = false -> guarded true ops = true /\ filter is_function ps = []).
    { intros X. destruct (Hf X) as (_ & G & _). rewrite (Nm X) in G. destruct (guarded_skip _ _ G N) as [G1 G2]. split; [exact G1|exact G2]. }
    assert (Pp : Forall plain_token ps) by exact (Forall_app_l _ _ _ Hp). pose proof (Forall_app_r _ _ _ Hp) as Hp'. inversion Hp' as [|x0 x1 _ Hp'']; subst x0 x1.
    rewrite filter_app, app_length in Hc. cbn [filter is_function] in Hc.
    destruct D as [(n & f & Ea & Eops & Eout)|(Hn' & Ea & Eops & Eout)].
    + subst ops. constructor; rewrite ?named_snoc, ?Eout.
      * exists os'. split; [exact St|exact (lines_other _ _ _ Hl' eq_refl)].
      * discriminate.
      * rewrite Ea in Hc. cbn [filter is_function List.length] in Hc. lia.
      * intros o' X. apply in_app_or in X. destruct X as [X|X]; [exact (Hn o' X)|]. apply in_app_or in X. destruct X as [X|[X|[X|[]]]]; [exact (N o' X)|discriminate|discriminate].
      * inversion Hp''; assumption.
      * intros X. destruct (Hf X) as (R & _). destruct (Ps X) as [G1 G2]. split; [|split; [exact G1|discriminate]]. rewrite reg_app, R, reg_app, (reg_plain ps) by assumption. reflexivity.
    + constructor; rewrite ?named_snoc, ?Eout, ?Eops, ?Ea.
      * exists os'. split; assumption.
      * discriminate.
      * lia.
      * intros o' X. apply in_app_or in X. destruct X as [X|X]; [exact (Hn o' X)|exact (N o' X)].
      * exact Hp''.
      * intros X. destruct (Hf X) as (R & _). destruct (Ps X) as [G1 G2]. split; [rewrite reg_app, R; apply reg_plain; assumption|]. split; [|discriminate]. cbn [is_function]. apply guarded_less; [exact G1|].
        destruct ops as [|[] ops]; try exact I. destruct Hn' as [Hn'|Hn']; [|exact Hn']. rewrite Hn' in Hc. cbn [filter is_function List.length] in Hc. lia.
  - destruct (check_comma_position dbg toks (y_grp y) (List.length pre)) as [[]| |]; try discriminate. cbn [rbind] in H. apply push_comma_inv in H. destruct H as (ps & o & ops & n & argc & E & N & Ea & ->). cbn [y_out y_ops y_argc y_grp] in *.
    apply (Move ps (TOpen o :: ops) []); try reflexivity; try assumption; [constructor| |cbn [List.length]; rewrite Ea; reflexivity]. rewrite app_nil_r. reflexivity.
Qed.
Lemma implicit_frame : forall pre t rest y, frame (pre ++ [t]) rest y -> frame (pre ++ [t]) rest (push_implicit c t (hd_error rest) y).
Proof.
  intros pre t rest y F. unfold push_implicit. destruct (implicit_here c t (hd_error rest)) eqn:I; [|exact F]. assert (T : is_function t = false) by (unfold implicit_here in I; apply andb_true_iff in I; destruct I as [_ I]; destruct t; discriminate || reflexivity).
  destruct F as [(os & Ho & Hl) Ht Hc Hn Hp Hf]. rewrite named_snoc, T in *. constructor; cbn [y_out y_ops y_argc y_grp]; rewrite ?named_snoc, ?T; auto.
  - exists os. split; [exact Ho|]. apply l_other; [reflexivity|exact Hl].
  - discriminate.
  - constructor; [exact Logic.I|exact Hp].
Qed.
Lemma frame_start : forall ts, frame [] ts (Yard [] [] [] []).
Proof. intros ts. constructor; cbn; auto; [exists []; split; constructor; constructor|discriminate|intros _; repeat split; discriminate]. Qed.

(** In postfix order: the first open symbol, and functions before it. *)
Fixpoint first_open (l : list tok) : option char := match l with [] => None | TOpen o :: _ => Some o | _ :: l' => first_open l' end.
Fixpoint fine (b : bool) (l : list tok) : bool := match l with [] => true | TOpen _ :: _ => true | TFunction _ :: l' => b && fine false l' | TArgCount _ :: l' => fine true l' | _ :: l' => fine b l' end.
Lemma first_app : forall out ops, (forall o : char, ~ In (TOpen o) out) -> first_open (out ++ ops) = first_open ops.
Proof. induction out as [|t out IH]; intros ops N; [reflexivity|]. assert (N' : forall o, ~ In (TOpen o) out) by (intros o X; apply (N o); right; exact X). destruct t; cbn [app first_open]; try (apply IH; exact N'). exfalso. apply (N c0). left. reflexivity. Qed.
Lemma fine_app : forall out b b' ops, reg b out = Some b' -> fine b' ops = true -> fine b (out ++ ops) = true.
Proof. induction out as [|t out IH]; intros b b' ops R F; [injection R as ->; exact F|]. destruct t; cbn [app reg fine] in *; try (exact (IH _ _ _ R F)); [destruct b; [exact (IH _ _ _ R F)|discriminate]|reflexivity]. Qed.
Lemma fine_guarded : forall ops, guarded false ops = true -> Forall plain_token ops -> fine false ops = true.
Proof. induction ops as [|t ops IH]; intros G P; [reflexivity|]. inversion P; subst. destruct t; cbn [guarded fine] in *; try (apply IH; assumption); [discriminate|contradiction|reflexivity]. Qed.
Lemma lines_first : forall ops os o, lines ops os -> first_open ops = Some o -> exists b os', os = (o, b) :: os'.
Proof. intros ops os o H. induction H as [|t ops os N H IH|o' b ops os H IH F]; intros X; [discriminate| |injection X as ->; eauto]. destruct t; try exact (IH X). discriminate N. Qed.
Lemma frame_end : forall ts y, frame ts [] y -> (custom_function_call (cfg c) = false -> fine false (y_out y ++ y_ops y) = true) /\
  (forall o, first_open (y_out y ++ y_ops y) = Some o -> exists b os, still_open ts ((o, b) :: os)).
Proof.
  intros ts y [(os & Ho & Hl) Ht Hc Hn Hp Hf]. split.
  - intros X. destruct (Hf X) as (R & G & Y). apply (fine_app _ _ _ _ R). apply fine_guarded; [|exact Hp]. destruct (named ts); [destruct (Y eq_refl) as (r & [Z|Z]); discriminate Z|exact G].
  - intros o X. rewrite first_app in X by exact Hn. destruct (lines_first _ _ _ Hl X) as (b & os' & ->). eauto.
Qed.
End Frame.
