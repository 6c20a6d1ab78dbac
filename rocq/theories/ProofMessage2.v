(** * Messages: each has its cause among the tokens *)
From Coq Require Import List NArith ZArith Bool Arith Lia String.
From Verif Require Import ModelBase ModelContext ModelEvaluator ModelText ModelStr ModelSplit ModelTokenizer ModelDefault ModelMessage
  SpecExpr SpecGrammar SpecTokens SpecBlame SpecMessage ProofMessage ProofTokens ProofTokens2 ProofStillOpen.
Import ListNotations.
Local Open Scope list_scope.

Section Debug.
Context {V W : Type}.
Variable S_ : voice V W.
Lemma debug_inside : forall q s, inside S_ q s (List.concat (map (debug_in S_ q) s)).
Proof.
  intros q. induction s as [|ch s IH]; [constructor|]. cbn [map List.concat]. unfold debug_in at 1. destruct (N.eqb_spec ch 92) as [E|E]; [apply in_marked; [left; exact E|exact IH]|].
  destruct (N.eqb_spec ch q) as [E'|E']; [apply in_marked; [right; exact E'|exact IH]|]. cbn [orb]. destruct (N.leb_spec 32 ch), (N.leb_spec ch 126); cbn [andb].
  - apply in_plain; try assumption. split; assumption.
  - apply in_odd; try assumption. intros [A B]. lia.
  - apply in_odd; try assumption. intros [A B]. lia.
  - apply in_odd; try assumption. intros [A B]. lia.
Qed.
Lemma debug_str_q : forall s, in_quotes S_ s (debug_str S_ s).
Proof. intros s. exists (List.concat (map (debug_in S_ 34) s)). split; [apply debug_inside|reflexivity]. Qed.
Lemma debug_char_q : forall ch, in_single_quotes S_ ch (debug_char S_ ch).
Proof. intros ch. exists (debug_in S_ 39 ch). split; [|reflexivity]. pose proof (debug_inside 39 [ch]) as H. cbn [map List.concat] in H. rewrite app_nil_r in H. exact H. Qed.
Lemma debug_option_q : forall o, optional S_ o (debug_option S_ o).
Proof. intros [s|]; [|reflexivity]. exists (debug_str S_ s). split; [apply debug_str_q|reflexivity]. Qed.
Lemma debug_token_q : forall t : token V, token_text S_ t (debug_token S_ t).
Proof. intros []; cbn [debug_token]; constructor; try apply debug_str_q; apply debug_char_q. Qed.
Lemma debug_tokens_q : forall ts : list (token V), tokens_text S_ ts (join_with (lit ", ") (map (debug_token S_) ts)).
Proof.
  induction ts as [|t ts IH]; [constructor|]. destruct ts as [|t' ts]; [apply ts_one, debug_token_q|]. cbn [map join_with]. apply ts_more; [apply debug_token_q|exact IH].
Qed.
End Debug.

Section Reasons.
Context {V W : Type}.
Variable c : ctx V W.
Variable S_ : voice V W.
Variable dbg : bool.
Notation tok := (token V).
Notation verdict ts k m := (disorder c S_ ts k m \/ (k = InvalidInput /\ missing c ts m)).

(** Where the tokens on the stacks come from. *)
Definition source (ts : list tok) (t : tok) : Prop :=
  match t with TClose _ | TComma | TUnknown _ => False | TArgCount _ => True | TBinary o => present c ts t /\ (get_binary c o = None -> implicit_mul (cfg c) = true /\ juxtapositions ts <> 0%nat /\ o = star) | _ => In t ts end.
Record sane (ts pre : list tok) (y : yard (V := V)) : Prop := {
  s_out : Forall (source ts) (y_out y); s_ops : Forall (source ts) (y_ops y);
  s_grp : Forall (fun p => exists l o r, pre = l ++ TOpen o :: r /\ List.length l = p) (y_grp y);
  s_empty : y_out y = [] -> operands pre = [] }.

Lemma pop_sane : forall ts op ops out, Forall (source ts) out -> Forall (source ts) ops ->
  Forall (source ts) (fst (pop_operators c op out ops)) /\ Forall (source ts) (snd (pop_operators c op out ops)) /\ exists e, fst (pop_operators c op out ops) = out ++ e.
Proof.
  intros ts op. induction ops as [|t ops IH]; intros out Ho Hs. { cbn. repeat split; try assumption. exists []. rewrite app_nil_r. reflexivity. }
  assert (Stop : Forall (source ts) (fst (out, t :: ops)) /\ Forall (source ts) (snd (out, t :: ops)) /\ exists e, fst (out, t :: ops) = out ++ e) by (cbn; repeat split; try assumption; exists []; rewrite app_nil_r; reflexivity).
  assert (Go : Forall (source ts) (fst (pop_operators c op (out ++ [t]) ops)) /\ Forall (source ts) (snd (pop_operators c op (out ++ [t]) ops)) /\ exists e, fst (pop_operators c op (out ++ [t]) ops) = out ++ e).
  { inversion Hs; subst. destruct (IH (out ++ [t])) as (A & B & e & E); [apply Forall_app; auto|assumption|]. repeat split; try assumption. exists (t :: e). rewrite E, <- app_assoc. reflexivity. }
  destruct t; cbn [pop_operators]; try exact Stop; try exact Go. destruct (get_binary c o); [|exact Stop]. destruct (pop_condition _ op); [exact Go|exact Stop].
Qed.
Lemma close_sane : forall ts cl ops out argc out' ops' argc', close_loop_m c cl out ops argc = Says (out', ops', argc') -> Forall (source ts) out -> Forall (source ts) ops ->
  Forall (source ts) out' /\ Forall (source ts) ops' /\ exists e, out' = out ++ e.
Proof.
  intros ts cl. induction ops as [|t ops IH]; intros out argc out' ops' argc' H Ho Hs; [discriminate|].
  assert (Go : close_loop_m c cl (out ++ [t]) ops argc = Says (out', ops', argc') -> Forall (source ts) out' /\ Forall (source ts) ops' /\ exists e, out' = out ++ e).
  { intros X. inversion Hs; subst. destruct (IH _ _ _ _ _ X) as (A & B & e & E); [apply Forall_app; auto|assumption|]. repeat split; try assumption. exists (t :: e). rewrite E, <- app_assoc. reflexivity. }
  destruct t; cbn [close_loop_m] in H; try exact (Go H). clear Go IH. inversion Hs; subst.
  destruct (get_group_symbol (cfg c) _) as [[o' cl']|]; [|discriminate]. destruct (char_eqb cl' cl); [|discriminate].
  assert (Plain : Says (out, ops, argc) = Says (out', ops', argc') -> Forall (source ts) out' /\ Forall (source ts) ops' /\ exists e, out' = out ++ e).
  { intros X. injection X as <- <- <-. repeat split; try assumption. exists []. rewrite app_nil_r. reflexivity. }
  destruct argc as [|n argc]; [exact (Plain H)|]. destruct ops as [|[] ops]; try exact (Plain H). injection H as <- <- <-. inversion H3; subst. repeat split; [|assumption|eauto].
  apply Forall_app. split; [assumption|]. constructor; [exact I|]. constructor; [assumption|constructor].
Qed.
Lemma close_says : forall cl ops out argc k m, close_loop_m c cl out ops argc = Errs k m -> k = InvalidExpression /\ m = lit "Misplace grouping symbol".
Proof.
  intros cl. induction ops as [|t ops IH]; intros out argc k m H; [injection H as <- <-; split; reflexivity|]. destruct t; cbn [close_loop_m] in H; try exact (IH _ _ _ _ H).
  destruct (get_group_symbol (cfg c) _) as [[o' cl']|]; [|injection H as <- <-; split; reflexivity]. destruct (char_eqb cl' cl); [|injection H as <- <-; split; reflexivity].
  destruct argc as [|n argc]; [discriminate|]. destruct ops as [|[] ops]; discriminate.
Qed.
Lemma close_wrong : forall cl ops out argc k m os, close_loop_m c cl out ops argc = Errs k m -> lines ops os -> forall o b os', os = (o, b) :: os' -> ~ closes cl o.
Proof.
  intros cl. induction ops as [|t ops IH]; intros out argc k m os H L o b os' E [g [G1 G2]]; [inversion L; subst; discriminate|].
  destruct t as [n|x|x|f|o1|u|n|c0|c0|x|]; cbn [close_loop_m] in H; try (apply (IH _ _ _ _ os H (lines_other _ _ _ L eq_refl) o b os' E); exists g; auto).
  apply lines_open in L. destruct L as (b1 & os1 & -> & _). injection E as <- <- <-. unfold get_group_symbol in H. rewrite G1 in H. cbn [option_map grouping_symbols] in H. rewrite G2 in H. unfold char_eqb in H. rewrite N.eqb_refl in H.
  destruct argc as [|n argc]; [discriminate|]. destruct ops as [|[] ops]; discriminate.
Qed.
Lemma comma_none : forall (ops out : list tok) k m, comma_loop_m out ops = Errs k m -> forall s, ~ In (TOpen s) ops.
Proof. induction ops as [|t ops IH]; intros out k m H s; [intros []|]. destruct t; cbn [comma_loop_m] in H; try (intros [X|X]; [discriminate X|exact (IH _ _ _ H s X)]). discriminate. Qed.
Lemma comma_sane : forall ts (ops out out' ops' : list tok), comma_loop_m out ops = Says (out', ops') -> Forall (source ts) out -> Forall (source ts) ops ->
  Forall (source ts) out' /\ Forall (source ts) ops' /\ exists e, out' = out ++ e.
Proof.
  intros ts. induction ops as [|t ops IH]; intros out out' ops' H Ho Hs; [discriminate|].
  assert (Go : comma_loop_m (out ++ [t]) ops = Says (out', ops') -> Forall (source ts) out' /\ Forall (source ts) ops' /\ exists e, out' = out ++ e).
  { intros X. inversion Hs; subst. destruct (IH _ _ _ X) as (A & B & e & E); [apply Forall_app; auto|assumption|]. repeat split; try assumption. exists (t :: e). rewrite E, <- app_assoc. reflexivity. }
  destruct t; cbn [comma_loop_m] in H; try exact (Go H). injection H as <- <-. repeat split; try assumption. exists []. rewrite app_nil_r. reflexivity.
Qed.
Lemma comma_says : forall (ops out : list tok) k m, comma_loop_m out ops = Errs k m -> k = InvalidExpression /\ m = lit "Misplace comma".
Proof. induction ops as [|t ops IH]; intros out k m H; [injection H as <- <-; split; reflexivity|]. destruct t; cbn [comma_loop_m] in H; try exact (IH _ _ _ H). discriminate. Qed.

Lemma operands_app : forall a b : list tok, operands (a ++ b) = operands a ++ operands b.
Proof. intros a b. apply filter_app. Qed.
Lemma grp_later : forall (pre : list tok) (t : tok) (grp : list nat), Forall (fun p => exists l o r, pre = l ++ TOpen o :: r /\ List.length l = p) grp ->
  Forall (fun p => exists l o r, pre ++ [t] = l ++ TOpen o :: r /\ List.length l = p) grp.
Proof. intros pre t grp H. eapply Forall_impl; [|exact H]. intros p (l & o & r & -> & L). exists l, o, (r ++ [t]). rewrite <- app_assoc. auto. Qed.
Lemma nil_app : forall (a e : list tok), a ++ e = [] -> a = []. Proof. intros [|] e H; [reflexivity|discriminate]. Qed.
Lemma nth_split' : forall (pre rest : list tok) t, nth_error (pre ++ t :: rest) (List.length pre) = Some t.
Proof. intros pre rest t. rewrite nth_error_app2, Nat.sub_diag by lia. reflexivity. Qed.
Lemma last_two : forall (pre : list tok) rest k a, nth_error (pre ++ rest) (List.length pre - S k) = Some a -> (S k <= List.length pre)%nat -> exists l r, pre = l ++ a :: r /\ List.length r = k.
Proof.
  intros pre rest k a H L. rewrite nth_error_app1 in H by lia. apply nth_error_split in H. destruct H as (l & r & -> & Hl). exists l, r. split; [reflexivity|]. rewrite app_length in *. cbn [List.length] in *. lia.
Qed.
Lemma one_left : forall (r : list tok), List.length r = 0%nat -> r = []. Proof. intros [|]; [reflexivity|discriminate]. Qed.

Lemma step_verdict : forall ts pre t rest y, ts = pre ++ t :: rest -> sane ts pre y -> frame c pre (t :: rest) y ->
  match yard_step_m c S_ dbg ts (List.length pre) t (hd_error rest) y with
  | Says y' => sane ts (pre ++ [t]) y' | Errs k m => verdict ts k m | Dies => True end.
Proof.
  intros ts pre t rest y E [A B G Z] [(os & Fo & Fl) _ Fc _ _ _]. assert (It : In t ts) by (rewrite E; apply in_or_app; right; left; reflexivity).
  assert (Z' : atom_token t = false -> forall e, y_out y ++ e = [] -> operands (pre ++ [t]) = []).
  { intros T e X. rewrite operands_app, (Z (nil_app _ _ X)). unfold operands. cbn [filter app]. rewrite T. reflexivity. }
  assert (Z'' : atom_token t = false -> y_out y = [] -> operands (pre ++ [t]) = []) by (intros T X; apply (Z' T []); rewrite app_nil_r; exact X).
  pose proof (grp_later pre t _ G) as G'.
  assert (Atom : source ts t -> sane ts (pre ++ [t]) (push_number c t y)).
  { intros Ht. unfold push_number. assert (X : Forall (source ts) (y_out y ++ [t])) by (apply Forall_app; auto). destruct y as [out ops argc grp]. cbn [y_out y_ops y_argc y_grp] in *.
    assert (N : forall e, (out ++ [t]) ++ e = [] -> operands (pre ++ [t]) = []) by (intros e Y; destruct out; discriminate Y).
    assert (N0 : out ++ [t] = [] -> operands (pre ++ [t]) = []) by (intros Y; destruct out; discriminate Y).
    destruct ops as [|[] ops]; try (constructor; assumption). destruct (is_some (get_unary c u)); [|constructor; assumption]. inversion B; subst. constructor; cbn [y_out y_ops y_argc y_grp]; try assumption; [|apply N]. apply Forall_app. auto. }
  destruct t as [n|x|x|f|o|u|n|c0|c0|x|]; cbn [yard_step_m]; try (apply Atom; exact It).
  - destruct (_ && _) eqn:Q.
    + left. apply andb_true_iff in Q. destruct Q as [Q1 Q2]. apply negb_true_iff in Q1. apply (no_parenthesis c S_ ts pre f rest E Q1). intros r' ->. discriminate Q2.
    + constructor; cbn [y_out y_ops y_argc y_grp]; auto.
  - unfold push_binary_function_m. destruct (get_binary c o) as [op|] eqn:Go; [|right; split; [reflexivity|apply no_binary; assumption]].
    destruct (pop_operators c op (y_out y) (y_ops y)) as [out ops] eqn:P. destruct (pop_sane ts op (y_ops y) (y_out y) A B) as (X & Y & e & X'). rewrite P in *. cbn [fst snd] in *. subst out.
    constructor; cbn [y_out y_ops y_argc y_grp]; auto; [|apply Z'; reflexivity]. constructor; [split; [left; exact It|congruence]|exact Y].
  - unfold push_unary_function_m. destruct (get_unary c u) as [f|] eqn:Gu; [|right; split; [reflexivity|apply no_unary; assumption]]. destruct (uf_notation f).
    + constructor; cbn [y_out y_ops y_argc y_grp]; auto.
    + destruct (y_out y) as [|x out] eqn:Eo; [left; apply (nothing_before c S_ ts pre u rest E); auto|]. rewrite <- Eo in *. constructor; cbn [y_out y_ops y_argc y_grp]; auto; [apply Forall_app; auto|apply Z'; reflexivity].
  - left. apply (no_meaning c S_ ts (TArgCount n)); [exact It|right; eauto|apply (debug_token_q S_ (TArgCount n))].
  - constructor; cbn [y_out y_ops y_argc y_grp]; auto. destruct (y_argc y); [exact G'|]. constructor; [|exact G']. exists pre, c0, []. auto.
  - unfold step_close_m. destruct (close_loop_m c c0 (y_out y) (y_ops y) (y_argc y)) as [[[out ops] argc]|k m|] eqn:Cl; cbn [tbind]; [| |exact I].
    + destruct (close_sane ts _ _ _ _ _ _ _ Cl A B) as (X & Y & e & ->).
      assert (Fine : sane ts (pre ++ [TClose c0]) (Yard (y_out y ++ e) ops argc (match argc with [] => y_grp y | _ => tl (y_grp y) end))).
      { constructor; cbn [y_out y_ops y_argc y_grp]; auto; [|apply Z'; reflexivity]. destruct argc; [exact G'|]. destruct (y_grp y); [constructor|inversion G'; assumption]. }
      destruct (1 <? List.length pre)%nat eqn:L1; [|exact Fine]. apply Nat.ltb_lt in L1. destruct (nth_error ts (List.length pre - 1)) as [p1|] eqn:N1; [|exact I]. destruct p1 as [| | | | | | |o1| | |]; try exact Fine.
      destruct (get_group_open_for (cfg c) c0) as [v|] eqn:Gv; [|exact Fine]. destruct (char_eqb v o1) eqn:Ev; [|exact Fine]. destruct (nth_error ts (List.length pre - 2)) as [t2|] eqn:N2; [|exact I].
      destruct (is_function t2) eqn:F2; [exact Fine|]. left. apply N.eqb_eq in Ev. subst o1. rewrite E in N1, N2.
      destruct (last_two pre _ 0 _ N1 ltac:(lia)) as (l1 & r1 & P1 & R1). apply one_left in R1. subst r1.
      assert (P2 : exists l2, l1 = l2 ++ [t2]).
      { rewrite P1 in N2. rewrite app_length in N2. cbn [List.length] in N2. replace (List.length l1 + 1 - 2)%nat with (List.length l1 - 1)%nat in N2 by lia. rewrite <- app_assoc in N2. rewrite P1, app_length in L1. cbn [List.length] in L1.
        destruct (last_two l1 _ 0 _ N2 ltac:(lia)) as (l2 & r2 & -> & R2). apply one_left in R2. subst r2. eauto. }
      destruct P2 as (l2 & ->). apply (nothing_inside c S_ ts l2 t2 v c0 rest); [rewrite E, P1, <- !app_assoc; reflexivity|intros f ->; discriminate F2|exact Gv].
    + destruct (close_says _ _ _ _ _ _ Cl) as [-> ->]. left. apply (not_open c S_ ts pre c0 rest os E Fo). exact (close_wrong _ _ _ _ _ _ os Cl Fl).
  - left. apply (no_meaning c S_ ts (TUnknown x)); [exact It|left; eauto|apply (debug_token_q S_ (TUnknown x))].
  - unfold check_comma_position_m. destruct (List.length pre =? 0)%nat eqn:L0; [left; apply Nat.eqb_eq, one_left in L0; subst pre; exact (comma_first c S_ ts rest E)|]. apply Nat.eqb_neq in L0.
    destruct (tok_at ts (List.length pre - 1) is_grouping_open) eqn:T1.
    { left. unfold tok_at in T1. destruct (nth_error ts (List.length pre - 1)) as [p1|] eqn:N1; [|discriminate]. destruct p1 as [| | | | | | |o1| | |]; try discriminate. rewrite E in N1.
      destruct (last_two pre _ 0 _ N1 ltac:(lia)) as (l1 & r1 & P1 & R1). apply one_left in R1. subst r1. apply (comma_after_open c S_ ts l1 o1 rest). rewrite E, P1, <- app_assoc. reflexivity. }
    destruct (tok_at ts (List.length pre + 1) is_grouping_close) eqn:T2.
    { left. unfold tok_at in T2. destruct (nth_error ts (List.length pre + 1)) as [p1|] eqn:N1; [|discriminate]. destruct p1 as [| | | | | | | |c1| |]; try discriminate. rewrite E, nth_error_app2 in N1 by lia.
      replace (List.length pre + 1 - List.length pre)%nat with 1%nat in N1 by lia. cbn [nth_error] in N1. destruct rest as [|r1 rest]; [discriminate|]. injection N1 as ->. exact (comma_before_close c S_ ts pre c1 rest E). }
    assert (Inb : forall p grp, y_grp y = p :: grp -> (match p with 0 => true | S l => negb (tok_at ts l is_function) end) = true -> verdict ts InvalidInput (lit "Misplaced comma")).
    { intros p grp Eg Hp. rewrite Eg in G. inversion G as [|p0 g0 (l & o & r & P & L) _]; subst p0 g0. left. apply (comma_in_brackets c S_ ts l o r rest); [rewrite E, P, <- app_assoc; reflexivity|].
      intros l' f ->. rewrite app_length in L. cbn [List.length] in L. destruct p as [|p]; [lia|]. apply negb_true_iff in Hp. unfold tok_at in Hp. replace p with (List.length l') in Hp by lia.
      rewrite E, P, <- !app_assoc in Hp. cbn [app] in Hp. rewrite nth_split' in Hp. discriminate Hp. }
    assert (Rest : match push_comma_m y with Says y' => sane ts (pre ++ [TComma]) y' | Errs k m => verdict ts k m | Dies => True end).
    { unfold push_comma_m. destruct (y_argc y) as [|n argc] eqn:Ea; [left; apply (comma_outside c S_ ts pre rest os E Fo); apply (lines_called _ _ Fl); apply length_zero_iff_nil; cbn [List.length] in Fc; lia|]. destruct (comma_loop_m (y_out y) (y_ops y)) as [[out ops]|k m|] eqn:Cl; cbn [tbind]; [| |exact I].
      - destruct (comma_sane ts _ _ _ _ Cl A B) as (X & Y & e & ->). constructor; cbn [y_out y_ops y_argc y_grp]; auto. apply Z'. reflexivity.
      - destruct (comma_says _ _ _ _ Cl) as [-> ->]. left. apply (comma_loose c S_ ts pre rest E). rewrite (lines_none _ _ Fl (comma_none _ _ _ _ Cl)) in Fo. exact (still_none _ Fo). }
    destruct (y_grp y) as [|p grp] eqn:Eg; [exact Rest|]. specialize (Inb p grp eq_refl). destruct p as [|p]; [destruct dbg; [exact I|exact (Inb eq_refl)]|].
    destruct (tok_at ts p is_function); [exact Rest|exact (Inb eq_refl)].
Qed.

Lemma juxt : forall (l r : list tok) a b, multiplies a b = true -> juxtapositions (l ++ a :: b :: r) <> 0%nat.
Proof.
  intros l r a b H. induction l as [|x l IH]; cbn [app].
  - cbn [juxtapositions]. rewrite H. lia.
  - destruct l as [|y l]; cbn [app] in *; cbn [juxtapositions] in *; lia.
Qed.
Lemma implicit_sane : forall ts pre t rest y, ts = pre ++ t :: rest -> sane ts (pre ++ [t]) y -> sane ts (pre ++ [t]) (push_implicit c t (hd_error rest) y).
Proof.
  intros ts pre t rest y E S. unfold push_implicit. destruct (implicit_here c t (hd_error rest)) eqn:I; [|exact S]. destruct S. constructor; cbn [y_out y_ops y_argc y_grp]; auto. constructor; [|assumption].
  unfold implicit_here in I. apply andb_true_iff in I. destruct I as [I1 I2]. assert (J : juxtapositions ts <> 0%nat) by (destruct rest as [|b rest]; [destruct t; discriminate|]; rewrite E; apply juxt; destruct t, b; try discriminate; reflexivity).
  split; [right; auto|auto].
Qed.
Lemma loop_verdict : forall ts rest pre y, ts = pre ++ rest -> sane ts pre y -> frame c pre rest y ->
  match yard_loop_m c S_ dbg ts (List.length pre) rest y with Says y' => sane ts ts y' /\ frame c ts [] y' | Errs k m => verdict ts k m | Dies => True end.
Proof.
  intros ts. induction rest as [|t rest IH]; intros pre y E S F; cbn [yard_loop_m]. { rewrite app_nil_r in E. subst pre. auto. }
  pose proof (step_verdict ts pre t rest y E S F) as X. pose proof (step_same c S_ dbg ts (List.length pre) t (hd_error rest) y) as Q.
  destruct (yard_step_m c S_ dbg ts (List.length pre) t (hd_error rest) y) as [y'|k m|]; cbn [tbind]; [|exact X|exact I]. cbn [heard] in Q.
  pose proof (implicit_sane ts pre t rest y' E X) as Y. pose proof (implicit_frame c pre t rest y' (step_frame c dbg ts pre t rest y y' E F (eq_sym Q))) as F'.
  specialize (IH (pre ++ [t]) _ ltac:(rewrite <- app_assoc; exact E) Y F'). rewrite app_length in IH. cbn [List.length] in IH. rewrite Nat.add_1_r in IH. exact IH.
Qed.
Lemma finish_verdict : forall ts (ops out : list tok), Forall (source ts) out -> Forall (source ts) ops -> exists rpn, finish_m out ops = Says rpn /\ rpn = out ++ ops /\ Forall (source ts) rpn.
Proof.
  intros ts. induction ops as [|t ops IH]; intros out A B; cbn [finish_m]; [exists out; rewrite app_nil_r; auto|]. inversion B; subst.
  destruct t; cbn [is_grouping_close]; try (match goal with |- exists rpn, finish_m (out ++ [?t]) ops = _ /\ _ => destruct (IH (out ++ [t])) as (rpn & X & Y & Z); [apply Forall_app; auto|assumption|]; exists rpn; rewrite <- app_assoc in Y; auto end). contradiction.
Qed.
Definition orderly (ts rpn : list tok) (b : bool) : Prop :=
  (custom_function_call (cfg c) = false -> fine b rpn = true) /\ (forall o, first_open rpn = Some o -> exists called os, still_open ts ((o, called) :: os)).
Lemma infix_verdict : forall ts, match infix_to_rpn_m c S_ dbg ts with Says rpn => Forall (source ts) rpn /\ orderly ts rpn false | Errs k m => verdict ts k m | Dies => True end.
Proof.
  intros ts. unfold infix_to_rpn_m. pose proof (loop_verdict ts ts [] (Yard [] [] [] []) eq_refl) as X. cbn [List.length] in X. destruct (yard_loop_m c S_ dbg ts 0 ts (Yard [] [] [] [])) as [y|k m|]; cbn [tbind].
  - destruct X as [[A B _ _] F]; [constructor; cbn; auto|apply frame_start|]. destruct (finish_verdict ts _ _ A B) as (rpn & -> & -> & R). split; [exact R|exact (frame_end c ts y F)].
  - apply X; [constructor; cbn; auto|apply frame_start].
  - exact I.
Qed.

Lemma rpn_verdict : forall ts rpn values ac w k m w', Forall (source ts) rpn -> orderly ts rpn (is_some ac) -> rpn_loop_m c S_ dbg ts rpn values ac w = (Errs k m, w') -> verdict ts k m \/ failure c S_ ts w' k m.
Proof.
  intros ts. induction rpn as [|t rpn IH]; intros values ac w k m w' F [Of Oo] H; [discriminate|]. inversion F as [|t0 l0 Ft Fr]; subst t0 l0.
  assert (Call : forall (f : W -> res V * W) text (next : V -> W -> told (list V) * W), called (f w) text next = (Errs k m, w') ->
    (f w = (Err k, w') /\ m = text k) \/ exists v w1, next v w1 = (Errs k m, w')).
  { intros f text next X. unfold called in X. destruct (f w) as [[v|k1|] w1]; [right; eauto| |discriminate]. left. injection X as <- <- <-. auto. }
  assert (Op : operation_token t = true -> present c ts t -> verdict ts InvalidExpression (lit "[" ++ join_with (lit ", ") (map (debug_token S_) ts) ++ lit "]")).
  { intros O P. left. apply (no_operand c S_ ts t); [exact P|exact O|apply debug_tokens_q]. }
  destruct t as [n|x|x|f|o|u|n|c0|c0|x|]; cbn [rpn_loop_m] in H; cbn [source] in Ft; try contradiction.
  - exact (IH _ _ _ _ _ _ Fr (conj Of Oo) H).
  - destruct (get_variable c x) eqn:G; [exact (IH _ _ _ _ _ _ Fr (conj Of Oo) H)|]. injection H as <- <- _. left. right. split; [reflexivity|apply no_variable; assumption].
  - destruct (get_constant c x) eqn:G; [exact (IH _ _ _ _ _ _ Fr (conj Of Oo) H)|]. injection H as <- <- _. left. right. split; [reflexivity|apply no_constant; assumption].
  - destruct (get_function c f) as [fn|] eqn:G; [|injection H as <- <- _; left; right; split; [reflexivity|apply no_function; assumption]].
    destruct ac as [n|]; [|injection H as <- <- _; left; left; apply not_called; [exact Ft|]; destruct (custom_function_call (cfg c)); [reflexivity|discriminate (Of eq_refl)]]. destruct (pop_args n values []) as [values' args].
    destruct (Call (fn_call fn (rev args)) _ _ H) as [[C ->]|(v & w1 & X)]; [right; apply (function_failed c S_ ts w' f fn); assumption|exact (IH _ None _ _ _ _ Fr (conj Of Oo) X)].
  - destruct (get_binary c o) as [fn|] eqn:G.
    + destruct values as [|x [|y values]]; try (injection H as <- <- _; left; exact (Op eq_refl (proj1 Ft))).
      destruct (Call (bf_call fn y x) _ _ H) as [[C ->]|(v & w1 & X)]; [right; apply (binary_failed c S_ ts w' o fn); [exact (proj1 Ft)|assumption|assumption]|exact (IH _ _ _ _ _ _ Fr (conj Of Oo) X)].
    + injection H as <- <- _. left. left. destruct (proj2 Ft eq_refl) as (I1 & J & ->). apply no_times; assumption.
  - destruct (get_unary c u) as [fn|] eqn:G; [|injection H as <- <- _; left; right; split; [reflexivity|apply no_unary; assumption]]. destruct values as [|x values]; try (injection H as <- <- _; left; exact (Op eq_refl (or_introl Ft))).
    destruct (Call (uf_call fn x) _ _ H) as [[C ->]|(v & w1 & X)]; [right; apply (unary_failed c S_ ts w' u fn); assumption|exact (IH _ _ _ _ _ _ Fr (conj Of Oo) X)].
  - destruct (dbg && is_some ac); [discriminate|]. exact (IH _ (Some n) _ _ _ _ Fr (conj Of Oo) H).
  - injection H as <- <- _. left. left. destruct (Oo c0 eq_refl) as (called & os & So). apply (not_closed c S_ ts c0 called os); [exact So|apply (debug_token_q S_ (TOpen c0))].
Qed.
End Reasons.
