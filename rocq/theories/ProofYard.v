(** * The shunting-yard loop on the tokens of a well-formed tree *)
From Coq Require Import List NArith Bool Arith Lia.
From Verif Require Import ModelBase ModelContext ModelEvaluator SpecExpr.
Import ListNotations.

Section Yard.
Context {V W : Type}.
Variable c : ctx V W.
Variable dbg : bool.
Notation tok := (token V).
Notation run := (yard_loop c dbg).

Lemma run_cons : forall toks pos t rest y, run toks pos (t :: rest) y =
  rbind (yard_step c dbg toks pos t (hd_error rest) y)
        (fun y' => run toks (S pos) rest (push_implicit c t (hd_error rest) y')).
Proof. reflexivity. Qed.

Lemma wf_args_Forall : forall args,
  (fix all_wf es := match es with [] => True | e :: es' => wf c e /\ all_wf es' end) args <-> Forall (wf c) args.
Proof.
  induction args as [|a args IH]; split; intros H.
  - constructor. - exact I.
  - destruct H as [H1 H2]. constructor; [exact H1|]. apply IH, H2.
  - inversion H as [|? ? H1 H2]; subst. split; [exact H1|]. apply IH, H2.
Qed.

(** What an expression leaves on the operator stack, and what it has sent to the output. *)
Fixpoint pend (e : expr V) : list tok :=
  match e with
  | EBin o _ r => pend r ++ [TBinary o]
  | EMul _ r => pend r ++ [TBinary times]
  | EPre u e => if is_atom e then [] else pend e ++ [TUnary u]
  | _ => []
  end.
Fixpoint emit (e : expr V) : list tok :=
  match e with
  | EBin o l r => postfix l ++ emit r
  | EMul l r => postfix l ++ emit r
  | EPre u e => if is_atom e then postfix (EPre u e) else emit e
  | _ => postfix e
  end.

Lemma emit_pend : forall e, emit e ++ pend e = postfix e.
Proof.
  induction e as [v|x|x|g e IH|f g args IH|u e IH|e u IH|o l r IHl IHr|l r IHl IHr] using expr_ind';
    simpl; try reflexivity; try (rewrite app_nil_r; reflexivity).
  - destruct (is_atom e); simpl.
    + rewrite app_nil_r. reflexivity.
    + rewrite <- IH at 1. rewrite <- app_assoc. reflexivity.
  - rewrite <- IHr. rewrite <- !app_assoc. reflexivity.
  - rewrite <- IHr. rewrite <- !app_assoc. reflexivity.
Qed.

Lemma print_nonempty : forall e : expr V, wf c e -> print e <> [].
Proof.
  induction e as [v|x|x|g e IH|f g args IH|u e IH|e u IH|o l r IHl IHr|l r IHl IHr] using expr_ind';
    simpl; try discriminate.
  - intros _ H. apply app_eq_nil in H. destruct H; discriminate.
  - intros _ H. apply app_eq_nil in H. destruct H; discriminate.
  - intros [Hl _] H. apply app_eq_nil in H. destruct H as [H _]. revert H. apply IHl, Hl.
Qed.

Lemma postfix_nonempty : forall e : expr V, postfix e <> [].
Proof.
  induction e as [v|x|x|g' e IH|f g' args IH|u e IH|e u IH|o l r IHl IHr|l r IHl IHr] using expr_ind';
   simpl; try discriminate; try assumption; intros H;
    repeat (apply app_eq_nil in H; destruct H as [? H]); discriminate.
Qed.

Definition last_tok (e : expr V) : tok := last (print e) TComma.

Lemma last_app_ne : forall (A : Type) (l1 l2 : list A) d, l2 <> [] -> last (l1 ++ l2) d = last l2 d.
Proof.
  intros A l1 l2 d H. induction l1 as [|x l1 IH]; [reflexivity|].
  simpl. destruct (l1 ++ l2) eqn:E.
  - apply app_eq_nil in E. destruct E. contradiction.
  - exact IH.
Qed.

Lemma last_tok_pre : forall u e, wf c e -> last_tok (EPre u e) = last_tok e.
Proof.
  intros u e H. unfold last_tok. change (print (EPre u e)) with ([TUnary u] ++ print e).
  apply last_app_ne, print_nonempty, H.
Qed.

Lemma last_tok_bin : forall o l r, wf c r -> last_tok (EBin o l r) = last_tok r.
Proof.
  intros o l r H. unfold last_tok. change (print (EBin o l r)) with (print l ++ [TBinary o] ++ print r).
  rewrite app_assoc. apply last_app_ne, print_nonempty, H.
Qed.

Lemma last_tok_mul : forall l r, wf c r -> last_tok (EMul l r) = last_tok r.
Proof.
  intros l r H. unfold last_tok. change (print (EMul l r)) with (print l ++ print r).
  apply last_app_ne, print_nonempty, H.
Qed.

Lemma last_tok_close : forall (l : list tok) d x, last (l ++ [x]) d = x.
Proof. intros l d x. rewrite last_app_ne; [reflexivity|discriminate]. Qed.

Lemma last_tok_not_open : forall e s, wf c e -> last_tok e <> TOpen s.
Proof.
  induction e as [v|x|x|g e IH|f g args IH|u e IH|e u IH|o l r IHl IHr|l r IHl IHr] using expr_ind';
    intros s Hwf; try discriminate.
  - unfold last_tok. cbn [print app]. rewrite app_comm_cons, last_tok_close. discriminate.
  - unfold last_tok. cbn [print app]. rewrite !app_comm_cons, last_tok_close. discriminate.
  - destruct Hwf as [H _]. rewrite last_tok_pre; auto.
  - unfold last_tok. cbn [print app]. rewrite last_tok_close. discriminate.
  - destruct Hwf as (_ & H & _). rewrite last_tok_bin; auto.
  - destruct Hwf as (_ & H & _). rewrite last_tok_mul; auto.
Qed.

Definition first_is (e : expr V) (p : tok -> bool) : bool :=
  match print e with t :: _ => p t | [] => false end.

Lemma first_not_close_comma : forall e, wf c e ->
  exists t r, print e = t :: r /\ is_grouping_close t = false /\ t <> TComma.
Proof.
  induction e as [v|x|x|g e IH|f g args IH|u e IH|e u IH|o l r IHl IHr|l r IHl IHr] using expr_ind';
    intros Hwf; try (eexists; eexists; split; [reflexivity|split; [reflexivity|discriminate]]).
  - destruct Hwf as [H _]. destruct (IH H) as (t & r & E & H1 & H2). exists t, (r ++ [TUnary u]).
    simpl. rewrite E. auto.
  - destruct Hwf as [H _]. destruct (IHl H) as (t & q & E & H1 & H2). exists t, (q ++ [TBinary o] ++ print r).
    simpl. rewrite E. auto.
  - destruct Hwf as [H _]. destruct (IHl H) as (t & q & E & H1 & H2). exists t, (q ++ print r).
    simpl. rewrite E. auto.
Qed.

(** ** Conditions on the stack below an expression *)

Definition blocked (ops : list tok) (os : list str) : Prop :=
  forall o f out, In o os -> get_binary c o = Some f -> pop_operators c f out ops = (out, ops).
Definition not_unary_top (ops : list tok) : Prop :=
  match ops with TUnary u :: _ => get_unary c u = None | _ => True end.
Definition not_function_top (ops : list tok) : Prop :=
  match ops with TFunction _ :: _ => False | _ => True end.

Definition imp (t : tok) (post : list tok) : list tok :=
  if implicit_here c t (hd_error post) then [TBinary star] else [].

Definition atom_tok (e : expr V) : tok :=
  match e with ENum v => TNumber v | EVar x => TVariable x | EConst x => TConstant x | _ => TComma end.

Lemma groups_left_pop : forall o1 o2 f2, get_binary c o2 = Some f2 ->
  groups_left c o1 o2 -> exists f1, get_binary c o1 = Some f1 /\ pop_condition f1 f2 = true.
Proof.
  intros o1 o2 f2 H2 (f1 & f2' & H1 & H2' & H). rewrite H2 in H2'. injection H2' as <-.
  exists f1. split; [exact H1|]. unfold pop_condition. destruct H as [H|[H Ha]].
  - apply N.ltb_lt in H. rewrite H. reflexivity.
  - rewrite Ha. apply N.eqb_eq in H. rewrite H. apply orb_true_r.
Qed.

Lemma not_groups_left_pop : forall o1 o2 f1 f2, get_binary c o1 = Some f1 -> get_binary c o2 = Some f2 ->
  ~ groups_left c o1 o2 -> pop_condition f1 f2 = false.
Proof.
  intros o1 o2 f1 f2 H1 H2 Hn. destruct (pop_condition f1 f2) eqn:E; [|reflexivity]. exfalso. apply Hn.
  exists f1, f2. repeat split; auto. unfold pop_condition in E. apply orb_true_iff in E. destruct E as [E|E].
  - left. apply N.ltb_lt, E.
  - right. apply andb_true_iff in E. destruct E as [E1 E2]. apply N.eqb_eq in E1.
    destruct (bf_assoc f1); [auto|discriminate].
Qed.

Lemma pend_right_ops : forall e, ends_in_prefix e = false -> pend e = map TBinary (right_ops e).
Proof.
  induction e as [v|x|x|g e IH|f g args IH|u e IH|e u IH|o l r IHl IHr|l r IHl IHr] using expr_ind';
    simpl; intros H; try reflexivity.
  - destruct (is_atom e); [reflexivity|discriminate].
  - rewrite IHr, map_app; auto.
  - rewrite IHr, map_app; auto.
Qed.

Lemma pop_operators_all : forall f os out ops,
  (forall o, In o os -> exists f1, get_binary c o = Some f1 /\ pop_condition f1 f = true) ->
  pop_operators c f out (map TBinary os ++ ops) = pop_operators c f (out ++ map TBinary os) ops.
Proof.
  induction os as [|o os IH]; intros out ops H; simpl.
  - rewrite app_nil_r. reflexivity.
  - destruct (H o (or_introl eq_refl)) as (f1 & E & Hp). rewrite E, Hp.
    rewrite IH by (intros; apply H; right; assumption). rewrite <- app_assoc. reflexivity.
Qed.

Lemma pend_no_open : forall e s, ~ In (TOpen s) (pend e).
Proof.
  induction e as [v|x|x|g e IH|f g args IH|u e IH|e u IH|o l r IHl IHr|l r IHl IHr] using expr_ind';
    intros s; simpl; auto.
  - destruct (is_atom e); [auto|]. rewrite in_app_iff. intros [H|[H|[]]]; [revert H; apply IH|discriminate].
  - rewrite in_app_iff. intros [H|[H|[]]]; [revert H; apply IHr|discriminate].
  - rewrite in_app_iff. intros [H|[H|[]]]; [revert H; apply IHr|discriminate].
Qed.

Lemma close_loop_skip : forall cl ps out ops ac, (forall s, ~ In (TOpen s) ps) ->
  close_loop c cl out (ps ++ ops) ac = close_loop c cl (out ++ ps) ops ac.
Proof.
  induction ps as [|p ps IH]; intros out ops ac H; simpl.
  - rewrite app_nil_r. reflexivity.
  - assert (E : close_loop c cl (out ++ [p]) (ps ++ ops) ac = close_loop c cl (out ++ p :: ps) ops ac).
    { rewrite IH by (intros s Hs; apply (H s); right; exact Hs). rewrite <- app_assoc. reflexivity. }
    rewrite <- E. destruct p; try reflexivity. exfalso. apply (H c0). left. reflexivity.
Qed.

Lemma comma_loop_skip : forall ps out o (ops : list tok), (forall s, ~ In (TOpen s) ps) ->
  comma_loop out (ps ++ TOpen o :: ops) = Ok (out ++ ps, TOpen o :: ops).
Proof.
  induction ps as [|p ps IH]; intros out o ops H; simpl.
  - rewrite app_nil_r. reflexivity.
  - specialize (IH (out ++ [p]) o ops (fun s Hs => H s (or_intror Hs))).
    rewrite <- app_assoc in IH. simpl in IH. rewrite <- IH.
    destruct p; try reflexivity. exfalso. apply (H c0). left. reflexivity.
Qed.

Lemma group_symbol_of : forall cf g, get_group_symbol cf (grouping_open g) = Some (grouping_open g, grouping_close g).
Proof. intros cf []; reflexivity. Qed.

Lemma nth_error_last : forall (pre l post : list tok) d, l <> [] ->
  nth_error (pre ++ l ++ post) (length pre + length l - 1) = Some (last l d).
Proof.
  intros pre l post d H. destruct (exists_last H) as (l' & x & ->).
  rewrite last_tok_close. rewrite app_length. cbn [length].
  rewrite nth_error_app2 by lia. rewrite nth_error_app1 by (rewrite app_length; simpl; lia).
  rewrite nth_error_app2 by lia.
  replace (length pre + (length l' + 1) - 1 - length pre - length l') with 0 by lia. reflexivity.
Qed.

Definition result_of (toks : list tok) (e : expr V) (pre post : list tok) out ops ac gc : Prop :=
  exists gc', (ac <> [] -> gc' = gc) /\
  run toks (length pre) (print e ++ post) (Yard out ops ac gc) =
  run toks (length pre + length (print e)) post
      (Yard (out ++ emit e) (imp (last_tok e) post ++ pend e ++ ops) ac gc').

Definition good (e : expr V) : Prop :=
  wf c e -> forall toks pre post out ops ac gc, toks = pre ++ print e ++ post ->
  blocked ops (left_ops e) -> (starts_with_atom e = true -> not_unary_top ops) -> not_function_top ops ->
  result_of toks e pre post out ops ac gc.

Lemma push_implicit_imp : forall t post out ops ac gc,
  push_implicit c t (hd_error post) (Yard out ops ac gc) = Yard out (imp t post ++ ops) ac gc.
Proof.
  intros. unfold push_implicit, imp. destruct (implicit_here c t (hd_error post)); reflexivity.
Qed.

Lemma imp_none_next : forall t n post,
  match n with TNumber _ | TVariable _ | TConstant _ | TFunction _ | TOpen _ => False | _ => True end ->
  imp t (n :: post) = [].
Proof.
  intros t n post H. unfold imp, implicit_here. simpl. destruct n; try contradiction; destruct t;
    rewrite ?andb_false_r; reflexivity.
Qed.

Lemma imp_none_tok : forall t post,
  match t with TNumber _ | TClose _ => False | _ => True end -> imp t post = [].
Proof.
  intros t post H. unfold imp, implicit_here. destruct t; try contradiction; rewrite andb_false_r; reflexivity.
Qed.

Lemma push_number_plain : forall t out ops ac gc, not_unary_top ops ->
  push_number c t (Yard out ops ac gc) = Yard (out ++ [t]) ops ac gc.
Proof.
  intros t out ops ac gc H. unfold push_number. simpl. destruct ops as [|[] ops]; try reflexivity.
  simpl in H. rewrite H. reflexivity.
Qed.

Lemma good_atom : forall e t, print e = [t] -> postfix e = [t] -> emit e = [t] -> pend e = [] ->
  atom_token t = true -> good e.
Proof.
  intros e t Ep Epo Eem Epe Ha _ toks pre post out ops ac gc Et _ Hu _.
  assert (Hs : starts_with_atom e = true) by (unfold starts_with_atom; rewrite Ep; exact Ha).
  exists gc. split; [auto|]. rewrite Ep, Eem, Epe. cbn [length].
  unfold last_tok. rewrite Ep. simpl last. simpl.
  replace (yard_step c dbg toks (length pre) t (hd_error post) (Yard out ops ac gc))
    with (Ok (Yard (out ++ [t]) ops ac gc)).
  2:{ destruct t; try discriminate; simpl; rewrite push_number_plain; auto. }
  simpl. rewrite push_implicit_imp. f_equal. lia.
Qed.

(** The arguments of a call, up to the closing symbol. *)
Lemma good_args : forall args, args <> [] -> Forall good args -> Forall (wf c) args ->
  forall toks pre post cl out o ops k ac p gc,
  toks = pre ++ join [TComma] (map print args) ++ TClose cl :: post ->
  1 <= length pre -> tok_at toks p is_function = true ->
  (exists d, nth_error toks (length pre - 1) = Some d /\ (pre <> [] -> True)) ->
  exists em pe, em ++ pe = concat (map postfix args) /\ (forall s, ~ In (TOpen s) pe) /\
  run toks (length pre) (join [TComma] (map print args) ++ TClose cl :: post)
      (Yard out (TOpen o :: ops) (k :: ac) (S p :: gc)) =
  run toks (length pre + length (join [TComma] (map print args))) (TClose cl :: post)
      (Yard (out ++ em) (pe ++ TOpen o :: ops) (k + (length args - 1) :: ac) (S p :: gc)).
Proof.
  induction args as [|a args IH]; intros Hne Hg Hw toks pre post cl out o ops k ac p gc Et Hpre Hp Hd;
    [contradiction|].
  inversion Hg as [|? ? Hga Hgs]; subst x l. inversion Hw as [|? ? Hwa Hws]; subst x l.
  assert (Hblk : blocked (TOpen o :: ops) (left_ops a)) by (intros ? ? ? _ _; reflexivity).
  destruct args as [|b args].
  - simpl join in *. destruct (Hga Hwa toks pre (TClose cl :: post) out (TOpen o :: ops) (k :: ac) (S p :: gc)
      Et Hblk (fun _ => I) I) as (gc' & Hgc & E).
    rewrite (Hgc ltac:(discriminate)) in E.
    exists (emit a), (pend a). simpl concat. rewrite app_nil_r. split; [apply emit_pend|].
    split; [apply pend_no_open|]. rewrite E. cbn [length].
    rewrite imp_none_next by exact I. f_equal. f_equal. f_equal. lia.
  - set (rest := b :: args) in *.
    assert (Erest : join [TComma] (map print (a :: rest)) = print a ++ TComma :: join [TComma] (map print rest))
      by reflexivity.
    rewrite Erest in *. rewrite <- app_assoc in Et. cbn [app] in Et.
    destruct (Hga Hwa toks pre (TComma :: join [TComma] (map print rest) ++ TClose cl :: post)
      out (TOpen o :: ops) (k :: ac) (S p :: gc) Et Hblk (fun _ => I) I) as (gc' & Hgc & E).
    rewrite (Hgc ltac:(discriminate)) in E. rewrite imp_none_next in E by exact I.
    rewrite <- app_assoc. cbn [app]. rewrite E. clear E Hgc gc'.
    (* the comma *)
    rewrite run_cons. cbn [yard_step].
    assert (Hcheck : check_comma_position dbg toks (S p :: gc) (length pre + length (print a)) = Ok tt).
    { unfold check_comma_position.
      assert (Hpa : print a <> []) by (apply print_nonempty, Hwa).
      destruct (length pre + length (print a) =? 0)%nat eqn:E0.
      { apply Nat.eqb_eq in E0. lia. }
      replace (tok_at toks (length pre + length (print a) - 1) is_grouping_open) with false.
      2:{ unfold tok_at. rewrite Et, nth_error_last with (d := TComma) by exact Hpa.
          fold (last_tok a). pose proof (last_tok_not_open a) as Hno.
          destruct (last_tok a) eqn:El; try reflexivity. exfalso. exact (Hno c0 Hwa eq_refl). }
      replace (tok_at toks (length pre + length (print a) + 1) is_grouping_close) with false.
      2:{ unfold tok_at. rewrite Et. rewrite app_assoc.
          rewrite nth_error_app2 by (rewrite app_length; lia).
          rewrite app_length. replace (_ + _ + 1 - (_ + _)) with 1 by lia. simpl.
          inversion Hws as [|? ? Hwb _]; subst x l.
          destruct (first_not_close_comma b Hwb) as (t & q & Eb & Hc & _).
          destruct args as [|b' args']; simpl; rewrite Eb; simpl; rewrite Hc; reflexivity. }
      rewrite Hp. reflexivity. }
    cbn [y_grp]. rewrite Hcheck. cbn [rbind]. unfold push_comma. cbn [y_argc]. cbn [y_out]. cbn [y_ops].
    cbn [app]. rewrite comma_loop_skip by apply pend_no_open. cbn [rbind y_grp].
    rewrite push_implicit_imp. rewrite imp_none_tok by exact I. cbn [app].
    destruct (IH ltac:(discriminate) Hgs Hws toks (pre ++ print a ++ [TComma]) post cl
       (out ++ emit a ++ pend a) o ops (S k) ac p gc) as (em & pe & Eem & Hpe & E).
    { rewrite Et. rewrite <- !app_assoc. reflexivity. }
    { rewrite app_length. lia. }
    { exact Hp. }
    { rewrite app_length, Et. destruct (nth_error (pre ++ print a ++ TComma :: join [TComma] (map print rest) ++ TClose cl :: post) (length pre + length (print a ++ [TComma]) - 1)) eqn:En.
      - eexists; split; [reflexivity|auto].
      - apply nth_error_None in En. rewrite !app_length in En. simpl in En. lia. }
    exists (emit a ++ pend a ++ em), pe. split.
    { rewrite <- !app_assoc, Eem. simpl concat. rewrite app_assoc, emit_pend. reflexivity. }
    split; [exact Hpe|].
    rewrite !app_length in E. cbn [length] in E.
    replace (length pre + (length (print a) + 1)) with (S (length pre + length (print a))) in E by lia.
    rewrite <- !app_assoc in E. rewrite <- !app_assoc. rewrite E.
    f_equal.
    + rewrite app_length. cbn [length]. lia.
    + f_equal. f_equal. unfold rest. cbn [length]. lia.
Qed.

(** The empty-group check passes after the tokens of an expression. *)
Lemma step_close_ok : forall toks pre l post cl out ops ac gc out' ops' ac',
  toks = pre ++ l ++ TClose cl :: post -> l <> [] -> (forall s, last l TComma <> TOpen s) ->
  close_loop c cl out ops ac = Ok (out', ops', ac') ->
  step_close c toks (length pre + length l) cl (Yard out ops ac gc) =
  Ok (Yard out' ops' ac' (match ac' with [] => gc | _ => tl gc end)).
Proof.
  intros toks pre l post cl out ops ac gc out' ops' ac' Et Hl Hlast Hc.
  unfold step_close. cbn [y_out]. cbn [y_ops]. cbn [y_argc]. rewrite Hc. cbn [rbind].
  destruct (1 <? length pre + length l)%nat eqn:E1; [|reflexivity].
  rewrite Et, nth_error_last with (d := TComma) by exact Hl.
  destruct (last l TComma) eqn:El; try reflexivity. exfalso. exact (Hlast c0 eq_refl).
Qed.

Lemma join_nonempty : forall args, args <> [] -> Forall (wf c) args ->
  join [TComma] (map print args) <> [] /\ forall s, last (join [TComma] (map print args)) TComma <> TOpen s.
Proof.
  induction args as [|a args IH]; intros Hne Hw; [contradiction|].
  inversion Hw as [|? ? Hwa Hws]; subst x l.
  destruct args as [|b args].
  - simpl. split; [apply print_nonempty, Hwa|]. intros s. apply last_tok_not_open, Hwa.
  - destruct (IH ltac:(discriminate) Hws) as [H1 H2].
    assert (Erest : join [TComma] (map print (a :: b :: args)) =
       (print a ++ [TComma]) ++ join [TComma] (map print (b :: args))) by (rewrite <- app_assoc; reflexivity).
    rewrite Erest. split.
    + intros E. apply app_eq_nil in E. destruct E as [_ E]. contradiction.
    + intros s. rewrite last_app_ne by exact H1. apply H2.
Qed.

Ltac ys := cbn [yard_step rbind y_out y_ops y_argc y_grp app hd_error].

Lemma good_all : forall e, good e.
Proof.
  induction e as [v|x|x|g e IH|f g args IH|u e IH|e u IH|o l r IHl IHr|l r IHl IHr] using expr_ind'.
  - apply (good_atom _ (TNumber v)); reflexivity.
  - apply (good_atom _ (TVariable x)); reflexivity.
  - apply (good_atom _ (TConstant x)); reflexivity.
  - (* group *)
    intros Hwf toks pre post out ops ac gc Et _ _ Hf. simpl in Hwf.
    cbn [print app] in Et. rewrite <- app_assoc in Et. cbn [app] in Et.
    set (gc1 := match ac with [] => gc | _ => length pre :: gc end).
    destruct (IH Hwf toks (pre ++ [TOpen (grouping_open g)]) (TClose (grouping_close g) :: post) out
       (TOpen (grouping_open g) :: ops) ac gc1) as (gc' & Hgc & E).
    { rewrite Et. rewrite <- !app_assoc. reflexivity. }
    { intros ? ? ? _ _. reflexivity. }
    { intros _. exact I. }
    { exact I. }
    rewrite app_length in E. cbn [length] in E. rewrite imp_none_next in E by exact I.
    exists (match ac with [] => gc' | _ => tl gc' end). split.
    { intros Hne. destruct ac; [contradiction|]. rewrite Hgc by discriminate. reflexivity. }
    cbn [print app]. rewrite <- app_assoc. cbn [app].
    rewrite run_cons; ys. rewrite push_implicit_imp, imp_none_tok by exact I. cbn [app].
    fold gc1. replace (S (length pre)) with (length pre + 1) by lia. rewrite E.
    rewrite run_cons; ys.
    assert (Hstep := step_close_ok toks (pre ++ [TOpen (grouping_open g)]) (print e) post (grouping_close g)
      (out ++ emit e) (pend e ++ TOpen (grouping_open g) :: ops) ac gc' ((out ++ emit e) ++ pend e) ops ac).
    rewrite app_length in Hstep. cbn [length] in Hstep. cbn [app] in Hstep.
    rewrite Hstep; clear Hstep.
    + ys. rewrite push_implicit_imp.
      rewrite <- app_assoc, emit_pend. cbn [emit]. cbn [pend]. cbn [app].
      assert (Hl : last_tok (EGroup g e) = TClose (grouping_close g)).
      { unfold last_tok. cbn [print app]. rewrite app_comm_cons. apply last_tok_close. }
      rewrite Hl. f_equal. cbn [length]. rewrite app_length. cbn [length]. lia.
    + rewrite Et. rewrite <- !app_assoc. reflexivity.
    + apply print_nonempty, Hwf.
    + intros s. apply last_tok_not_open, Hwf.
    + rewrite close_loop_skip by apply pend_no_open. cbn [close_loop]. rewrite group_symbol_of.
      unfold char_eqb. rewrite N.eqb_refl.
      destruct ac as [|n ac]; [reflexivity|]. destruct ops as [|[] ops]; try reflexivity. contradiction.
  - (* call *)
    intros Hwf toks pre post out ops ac gc Et _ _ Hf.
    destruct Hwf as (Hne & Hcustom & Hargs). rewrite wf_args_Forall in Hargs.
    cbn [print app] in Et. rewrite <- app_assoc in Et. cbn [app] in Et.
    destruct (join_nonempty args Hne Hargs) as [Hj1 Hj2].
    set (pre' := pre ++ [TFunction f; TOpen (grouping_open g)]).
    assert (Et' : toks = pre' ++ join [TComma] (map print args) ++ TClose (grouping_close g) :: post).
    { rewrite Et. unfold pre'. rewrite <- !app_assoc. reflexivity. }
    assert (Hlen : length pre' = S (S (length pre))) by (unfold pre'; rewrite app_length; simpl; lia).
    destruct (good_args args Hne IH Hargs toks pre' post (grouping_close g) out (grouping_open g)
       (TFunction f :: ops) 0 ac (length pre) gc Et') as (em & pe & Eem & Hpe & E).
    { rewrite Hlen. lia. }
    { unfold tok_at. rewrite Et. rewrite nth_error_app2 by lia. rewrite Nat.sub_diag. reflexivity. }
    { destruct (nth_error toks (length pre' - 1)) eqn:En.
      - eexists; split; [reflexivity|auto].
      - apply nth_error_None in En. rewrite Et', app_length in En. rewrite Hlen in *.
        rewrite app_length in En. simpl in En. lia. }
    exists (match ac with [] => S (length pre) :: gc | _ => gc end). split.
    { intros Hn. destruct ac; [contradiction|reflexivity]. }
    cbn [print app]. rewrite <- app_assoc. cbn [app].
    rewrite run_cons; ys.
    replace (negb (custom_function_call (cfg c)) && negb (contains_symbol (@TOpen V (grouping_open g)) 40%N))
      with false.
    2:{ destruct (custom_function_call (cfg c)); [reflexivity|]. rewrite (Hcustom eq_refl). reflexivity. }
    ys. cbn [y_out]. cbn [y_ops]. cbn [y_argc]. cbn [y_grp].
    unfold push_implicit at 1. unfold implicit_here. rewrite andb_false_r.
    rewrite run_cons; ys.
    rewrite push_implicit_imp, imp_none_tok by exact I. cbn [app].
    rewrite Hlen in E. rewrite E. clear E.
    rewrite run_cons; ys.
    assert (Hstep := step_close_ok toks pre' (join [TComma] (map print args)) post (grouping_close g)
      (out ++ em) (pe ++ TOpen (grouping_open g) :: TFunction f :: ops) (length args - 1 :: ac)
      (S (length pre) :: gc) (out ++ postfix (ECall f g args)) ops ac Et' Hj1 Hj2).
    rewrite Hlen in Hstep. simpl Nat.add in Hstep. simpl Nat.add. rewrite Hstep; clear Hstep.
    + ys. rewrite push_implicit_imp. cbn [emit]. cbn [pend]. cbn [app].
      assert (Hl : last_tok (ECall f g args) = TClose (grouping_close g)).
      { unfold last_tok. cbn [print app]. rewrite !app_comm_cons. apply last_tok_close. }
      rewrite Hl. f_equal. cbn [length]. rewrite app_length. cbn [length]. lia.
    + rewrite close_loop_skip by exact Hpe. cbn [close_loop]. rewrite group_symbol_of.
      unfold char_eqb. rewrite N.eqb_refl. cbn [postfix]. rewrite <- Eem. rewrite <- !app_assoc. cbn [app].
      assert (Hla : length args - 1 + 1 = length args)
        by (destruct args; [contradiction|simpl; lia]).
      rewrite Hla. reflexivity.
  - (* prefix *)
    intros Hwf toks pre post out ops ac gc Et _ _ Hf.
    destruct Hwf as (Hwe & (fu & Hu & Hn) & Hstart). cbn [print app] in Et. cbn [app] in Et.
    assert (Epush : yard_step c dbg toks (length pre) (TUnary u) (hd_error (print e ++ post)) (Yard out ops ac gc)
       = Ok (Yard out (TUnary u :: ops) ac gc)).
    { simpl. unfold push_unary_function. rewrite Hu, Hn. reflexivity. }
    unfold result_of. cbn [print app]. cbn [app]. rewrite run_cons. rewrite Epush. ys.
    rewrite push_implicit_imp, imp_none_tok by exact I. cbn [app].
    rewrite last_tok_pre by exact Hwe.
    destruct (is_atom e) eqn:Ha.
    + (* directly before an atom *)
      exists gc. split; [auto|].
      assert (Ep : print e = [atom_tok e]) by (destruct e; try discriminate; reflexivity).
      assert (Epo : postfix e = [atom_tok e]) by (destruct e; try discriminate; reflexivity).
      assert (Ha' : atom_token (atom_tok e) = true) by (destruct e; try discriminate; reflexivity).
      unfold last_tok. rewrite Ep. cbn [app]. rewrite run_cons; ys. cbn [emit]. cbn [pend]. rewrite Ha. cbn [postfix]. rewrite Epo.
      replace (yard_step c dbg toks (S (length pre)) (atom_tok e) (hd_error post) (Yard out (TUnary u :: ops) ac gc))
        with (Ok (Yard (out ++ [atom_tok e; TUnary u]) ops ac gc)).
      2:{ destruct (atom_tok e); try discriminate; simpl; unfold push_number; simpl; rewrite Hu; simpl;
          rewrite <- app_assoc; reflexivity. }
      ys. rewrite push_implicit_imp. simpl. f_equal. lia.
    + (* before anything else *)
      destruct Hstart as [Hstart|Hstart]; [discriminate|].
      destruct (IH Hwe toks (pre ++ [TUnary u]) post out (TUnary u :: ops) ac gc) as (gc' & Hgc & E).
      { rewrite Et. rewrite <- app_assoc. reflexivity. }
      { intros ? ? ? _ _. reflexivity. }
      { rewrite Hstart. discriminate. }
      { exact I. }
      exists gc'. split; [exact Hgc|].
      rewrite app_length in E. cbn [length] in E.
      replace (S (length pre)) with (length pre + 1) by lia. rewrite E. cbn [emit]. cbn [pend]. rewrite Ha.
      rewrite <- !app_assoc. cbn [app]. f_equal. cbn [length]. lia.
  - (* postfix *)
    intros Hwf toks pre post out ops ac gc Et _ Hu Hf.
    destruct Hwf as (Hwe & (fu & Hfu & Hn) & Hprim). cbn [print app] in Et. rewrite <- app_assoc in Et. cbn [app] in Et.
    destruct (IH Hwe toks pre (TUnary u :: post) out ops ac gc Et) as (gc' & Hgc & E).
    { intros o f out' Hin. exfalso. destruct e; try discriminate; destruct Hin. }
    { intros Hs. apply Hu. unfold starts_with_atom in *. cbn [print app].
      destruct (print e) as [|t q]; [discriminate|]. exact Hs. }
    { exact Hf. }
    rewrite imp_none_next in E by exact I.
    assert (Epend : pend e = []).
    { destruct e; try discriminate; simpl in *; rewrite ?Hprim; reflexivity. }
    assert (Eemit : emit e = postfix e) by (rewrite <- (emit_pend e), Epend, app_nil_r; reflexivity).
    rewrite Epend, Eemit in E. cbn [app] in E.
    exists gc'. split; [exact Hgc|].
    cbn [print app]. rewrite <- app_assoc. cbn [app]. rewrite E. rewrite run_cons; ys.
    unfold push_unary_function. rewrite Hfu, Hn. cbn [y_out].
    destruct (out ++ postfix e) as [|t0 l0] eqn:Eo.
    { apply app_eq_nil in Eo. destruct Eo as [_ Eo]. exfalso. revert Eo. apply postfix_nonempty. }
    rewrite <- Eo. ys. cbn [y_ops]. cbn [y_argc]. cbn [y_grp].
    rewrite push_implicit_imp, imp_none_tok by exact I.
    unfold last_tok. cbn [print app]. rewrite last_tok_close. rewrite imp_none_tok by exact I.
    simpl. rewrite <- app_assoc. f_equal. rewrite app_length. simpl. lia.
  - (* binary *)
    intros Hwf toks pre post out ops ac gc Et Hb Hu Hf.
    destruct Hwf as (Hwl & Hwr & Hreg & Hends & Hleft & Hright).
    destruct (get_binary c o) as [fo|] eqn:Hfo; [clear Hreg|contradiction].
    cbn [print app] in Et. rewrite <- app_assoc in Et. cbn [app] in Et.
    destruct (IHl Hwl toks pre (TBinary o :: print r ++ post) out ops ac gc Et) as (gc1 & Hgc1 & E1).
    { intros o' f' out' Hin. apply Hb. simpl. apply in_app_iff. left. exact Hin. }
    { intros Hs. apply Hu. unfold starts_with_atom in *. cbn [print app].
      destruct (print l) as [|t q]; [discriminate|]. exact Hs. }
    { exact Hf. }
    rewrite imp_none_next in E1 by exact I.
    destruct (IHr Hwr toks (pre ++ print l ++ [TBinary o]) post (out ++ postfix l) (TBinary o :: ops) ac gc1)
      as (gc2 & Hgc2 & E2).
    { rewrite Et. rewrite <- !app_assoc. reflexivity. }
    { intros o' f' out' Hin Hf'. simpl. rewrite Hfo.
      rewrite (not_groups_left_pop o o' fo f' Hfo Hf' (Hright o' Hin)). reflexivity. }
    { intros _. exact I. }
    { exact I. }
    exists gc2. split.
    { intros Hne. rewrite Hgc2 by exact Hne. auto. }
    cbn [print app]. rewrite <- app_assoc. cbn [app]. rewrite E1. cbn [app].
    rewrite run_cons; ys. unfold push_binary_function. rewrite Hfo. cbn [y_out]. cbn [y_ops].
    rewrite (pend_right_ops l Hends).
    rewrite pop_operators_all by (intros o' Hin; apply (groups_left_pop o' o fo Hfo), Hleft, Hin).
    rewrite <- (pend_right_ops l Hends). rewrite <- app_assoc, emit_pend.
    rewrite (Hb o fo (out ++ postfix l)); [|simpl; apply in_app_iff; right; left; reflexivity|exact Hfo].
    ys. cbn [y_argc]. cbn [y_grp]. rewrite push_implicit_imp, imp_none_tok by exact I. cbn [app].
    rewrite !app_length in E2. cbn [length] in E2.
    replace (S (length pre + length (print l))) with (length pre + (length (print l) + 1)) by lia.
    rewrite E2. rewrite last_tok_bin by exact Hwr. cbn [emit]. cbn [pend]. rewrite <- !app_assoc. cbn [app].
    f_equal. rewrite app_length. simpl. lia.
  - (* juxtaposition *)
    intros Hwf toks pre post out ops ac gc Et Hb Hu Hf.
    destruct Hwf as (Hwl & Hwr & Himp & Hjux & Hright).
    cbn [print app] in Et. rewrite <- app_assoc in Et.
    destruct (IHl Hwl toks pre (print r ++ post) out ops ac gc Et) as (gc1 & Hgc1 & E1).
    { intros o' f' out' Hin. exfalso. destruct l; try discriminate Hjux; destruct Hin. }
    { intros Hs. apply Hu. unfold starts_with_atom in *. cbn [print app].
      destruct (print l) as [|t q]; [discriminate|]. exact Hs. }
    { exact Hf. }
    assert (Hi : imp (last_tok l) (print r ++ post) = [TBinary star]).
    { unfold imp, implicit_here. rewrite Himp. unfold juxtaposed in Hjux.
      destruct l as [v|x|x|g e|f g args|u e|e u|o l1 l2|l1 l2]; try discriminate Hjux;
        destruct (print r) as [|[] pr]; try discriminate Hjux; simpl hd_error; cbn [andb]; try reflexivity.
      all: try (destruct e; try discriminate Hjux; reflexivity).
      all: unfold last_tok; cbn [print app]; rewrite ?app_comm_cons, last_tok_close; reflexivity. }
    rewrite Hi in E1.
    assert (Hpl : pend l = []).
    { unfold juxtaposed in Hjux. destruct l as [v|x|x|g e|f g args|u e|e u|o l1 l2|l1 l2]; try discriminate Hjux; try reflexivity.
      destruct e; try discriminate Hjux; reflexivity. }
    assert (Eemit : emit l = postfix l) by (rewrite <- (emit_pend l), Hpl, app_nil_r; reflexivity).
    rewrite Hpl, Eemit in E1. cbn [app] in E1.
    destruct (IHr Hwr toks (pre ++ print l) post (out ++ postfix l) (TBinary star :: ops) ac gc1)
      as (gc2 & Hgc2 & E2).
    { rewrite Et. rewrite <- !app_assoc. reflexivity. }
    { intros o' f' out' Hin Hf'. simpl. destruct (get_binary c star) as [fs|] eqn:Hfs; [|reflexivity].
      rewrite (not_groups_left_pop times o' fs f' Hfs Hf' (Hright o' Hin)). reflexivity. }
    { intros _. exact I. }
    { exact I. }
    exists gc2. split.
    { intros Hne. rewrite Hgc2 by exact Hne. auto. }
    cbn [print app]. rewrite <- app_assoc. rewrite E1.
    rewrite !app_length in E2. rewrite E2. rewrite last_tok_mul by exact Hwr.
    cbn [emit]. cbn [pend]. rewrite <- !app_assoc. cbn [app]. f_equal. rewrite app_length. lia.
Qed.

Lemma finish_no_close : forall ops out, (forall s, ~ In (TClose s) ops) -> finish out ops = Ok (out ++ ops) :> res (list tok).
Proof.
  induction ops as [|t ops IH]; intros out H; simpl.
  - rewrite app_nil_r. reflexivity.
  - rewrite IH by (intros s Hs; apply (H s); right; exact Hs). rewrite <- app_assoc.
    destruct t; try reflexivity. exfalso. apply (H c0). left. reflexivity.
Qed.

Lemma pend_no_close : forall e s, ~ In (TClose s) (pend e).
Proof.
  induction e as [v|x|x|g e IH|f g args IH|u e IH|e u IH|o l r IHl IHr|l r IHl IHr] using expr_ind';
    intros s; simpl; auto.
  - destruct (is_atom e); [auto|]. rewrite in_app_iff. intros [H|[H|[]]]; [revert H; apply IH|discriminate].
  - rewrite in_app_iff. intros [H|[H|[]]]; [revert H; apply IHr|discriminate].
  - rewrite in_app_iff. intros [H|[H|[]]]; [revert H; apply IHr|discriminate].
Qed.

(** Conversion of a well-formed expression gives its postfix form. *)
Theorem infix_to_rpn_print : forall e, wf c e -> infix_to_rpn c dbg (print e) = Ok (postfix e).
Proof.
  intros e Hwf. unfold infix_to_rpn.
  destruct (good_all e Hwf (print e) [] [] [] [] [] []) as (gc' & _ & E).
  - rewrite app_nil_r. reflexivity.
  - intros ? ? ? _ _. reflexivity.
  - intros _. exact I.
  - exact I.
  - rewrite app_nil_r in E. cbn [length] in E. rewrite E. cbn [yard_loop yard_step]. cbn [rbind]. cbn [y_out]. cbn [y_ops].
    replace (imp (last_tok e) []) with (@nil tok).
    2:{ unfold imp, implicit_here. simpl. destruct (last_tok e); rewrite andb_false_r; reflexivity. }
    cbn [app]. rewrite app_nil_r. rewrite finish_no_close by apply pend_no_close.
    rewrite emit_pend. reflexivity.
Qed.

End Yard.
