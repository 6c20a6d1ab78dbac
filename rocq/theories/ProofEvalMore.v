(** * Consequences of the main evaluation theorem in more elementary terms *)
From Coq Require Import List NArith Bool Arith Lia Permutation.
From Verif Require Import ModelBase ModelContext ModelEvaluator SpecExpr SpecGrammar SpecTokens SpecRun SpecChain
  ProofYard ProofRpn ProofGrammar ProofUnique ProofTokens ProofTokens2 ProofTokens3 ProofRun.
Import ListNotations.

Section More.
Context {V W : Type}.
Variable c : ctx V W.
Variable dbg : bool.
Notation E := (expr V).

Lemma primary_right : forall e : E, is_primary e = true -> right_ops e = [].
Proof. intros [v|x|x|g e|f g args|u e|e u|o l r|l r]; simpl; congruence. Qed.
Lemma primary_left : forall e : E, is_primary e = true -> left_ops e = [].
Proof. intros [v|x|x|g e|f g args|u e|e u|o l r|l r]; simpl; congruence. Qed.
Lemma primary_prefix : forall e : E, is_primary e = true -> ends_in_prefix e = false.
Proof. intros [v|x|x|g e|f g args|u e|e u|o l r|l r]; simpl; try congruence. intros ->. reflexivity. Qed.

Lemma left_tree_print : forall rest (a : E), print (left_tree a rest) = print a ++ chain rest.
Proof.
  induction rest as [|[o e] rest IH]; intros a; simpl.
  - rewrite app_nil_r. reflexivity.
  - rewrite IH. simpl. rewrite <- app_assoc. reflexivity.
Qed.
Lemma right_tree_print : forall rest (a : E), print (right_tree a rest) = print a ++ chain rest.
Proof.
  induction rest as [|[o e] rest IH]; intros a; simpl.
  - rewrite app_nil_r. reflexivity.
  - rewrite IH. reflexivity.
Qed.

Lemma left_tree_wf : forall p rest (a : E), wf c a -> ends_in_prefix a = false ->
  (forall o, In o (right_ops a) -> op_like c p LeftA o) ->
  Forall (fun '(o, e) => op_like c p LeftA o /\ wf c e /\ is_primary e = true) rest -> wf c (left_tree a rest).
Proof.
  intros p. induction rest as [|[o e] rest IH]; intros a Ha Hp Hr F; [exact Ha|].
  inversion F as [|? ? Hh F']; subst. cbv beta iota in Hh. destruct Hh as (Ho & He & Hpe). simpl. destruct Ho as (f & Ef & Ep & Ea). apply IH; [| | |exact F'].
  - simpl. split; [exact Ha|]. split; [exact He|]. split; [congruence|]. split; [exact Hp|]. split.
    + intros o' Hin. destruct (Hr o' Hin) as (f' & Ef' & Ep' & Ea'). exists f', f. split; [exact Ef'|]. split; [exact Ef|].
      right. split; [congruence|exact Ea'].
    + rewrite (primary_left e Hpe). intros o' [].
  - simpl. apply primary_prefix. exact Hpe.
  - simpl. rewrite (primary_right e Hpe). intros o' [<-|[]]. exists f. auto.
Qed.

Lemma right_tree_wf : forall p rest (a : E), wf c a -> is_primary a = true ->
  Forall (fun '(o, e) => op_like c p RightA o /\ wf c e /\ is_primary e = true) rest ->
  wf c (right_tree a rest) /\ (forall o, In o (left_ops (right_tree a rest)) -> op_like c p RightA o).
Proof.
  intros p. induction rest as [|[o e] rest IH]; intros a Ha Hp F.
  - split; [exact Ha|]. simpl. rewrite (primary_left a Hp). intros o [].
  - inversion F as [|? ? Hh F']; subst. cbv beta iota in Hh. destruct Hh as (Ho & He & Hpe). destruct (IH e He Hpe F') as [Hw Hl].
    pose proof Ho as Ho'. destruct Ho as (f & Ef & Ep & Ea). split.
    + simpl. split; [exact Ha|]. split; [exact Hw|]. split; [congruence|]. split; [apply primary_prefix; exact Hp|]. split.
      * rewrite (primary_right a Hp). intros o' [].
      * intros o' Hin (f1 & f2 & E1 & E2 & [H|[H1 H2]]); destruct (Hl o' Hin) as (f' & Ef' & Ep' & Ea').
        -- rewrite E1 in Ef. rewrite E2 in Ef'. injection Ef as ->. injection Ef' as ->. rewrite Ep, Ep' in H. apply (N.lt_irrefl _ H).
        -- rewrite E1 in Ef. injection Ef as ->. congruence.
    + simpl. rewrite (primary_left a Hp). intros o' [<-|[]]. exact Ho'.
Qed.

Lemma left_chain : forall p (a : E) rest w, wf c a -> is_primary a = true ->
  Forall (fun '(o, e) => op_like c p LeftA o /\ wf c e /\ is_primary e = true) rest ->
  eval_tokens c dbg (print a ++ chain rest) w = denote c (left_tree a rest) w.
Proof.
  intros p a rest w Ha Hp F. rewrite <- left_tree_print. apply eval_tokens_print. eapply left_tree_wf; eauto.
  - apply primary_prefix. exact Hp.
  - rewrite (primary_right a Hp). intros o [].
Qed.
Lemma right_chain : forall p (a : E) rest w, wf c a -> is_primary a = true ->
  Forall (fun '(o, e) => op_like c p RightA o /\ wf c e /\ is_primary e = true) rest ->
  eval_tokens c dbg (print a ++ chain rest) w = denote c (right_tree a rest) w.
Proof.
  intros p a rest w Ha Hp F. rewrite <- right_tree_print. apply eval_tokens_print. eapply right_tree_wf; eauto.
Qed.

Lemma two_operators : forall a o1 b o2 d w,
  wf c a -> wf c b -> wf c d -> is_primary a = true -> is_primary b = true -> is_primary d = true ->
  get_binary c o1 <> None -> get_binary c o2 <> None ->
  (groups_left c o1 o2 ->
     eval_tokens c dbg (print a ++ [TBinary o1] ++ print b ++ [TBinary o2] ++ print d) w
     = denote c (EBin o2 (EBin o1 a b) d) w) /\
  (~ groups_left c o1 o2 ->
     eval_tokens c dbg (print a ++ [TBinary o1] ++ print b ++ [TBinary o2] ++ print d) w
     = denote c (EBin o1 a (EBin o2 b d)) w).
Proof.
  intros a o1 b o2 d w Ha Hb Hd Pa Pb Pd H1 H2. split; intros Hg; rewrite <- (eval_tokens_print c dbg).
  - f_equal. simpl. rewrite <- !app_assoc. reflexivity.
  - simpl. rewrite (primary_right a Pa), (primary_left b Pb), (primary_right b Pb), (primary_left d Pd),
      (primary_prefix a Pa), (primary_prefix b Pb). simpl.
    repeat split; auto; try (intros o' []; fail).
    intros o' [<-|[]]. exact Hg.
  - reflexivity.
  - simpl. rewrite (primary_right a Pa), (primary_left b Pb), (primary_right b Pb), (primary_left d Pd),
      (primary_prefix a Pa), (primary_prefix b Pb). simpl.
    repeat split; auto; try (intros o' []; fail).
    intros o' [<-|[]]. exact Hg.
Qed.

Lemma grammar_reading : forall q, g_expr c q ->
  exists e, wf c e /\ print e = q /\ (forall e', wf c e' -> print e' = q -> e' = e) /\
  infix_to_rpn c dbg q = Ok (postfix e) /\ (forall w, eval_tokens c dbg q w = denote c e w).
Proof.
  intros q Hq. destruct (coverage c q Hq) as (e & Hw & <-). exists e. split; [exact Hw|]. split; [reflexivity|]. split.
  - intros e' Hw' E. apply (print_injective c); assumption.
  - split; [apply infix_to_rpn_print; exact Hw|]. intros w. apply eval_tokens_print. exact Hw.
Qed.

Lemma call_args : forall f g args fn vs w w1, wf c (ECall f g args) -> get_function c f = Some fn ->
  runs_all c args w (Ok vs) w1 -> eval_tokens c dbg (print (ECall f g args)) w = fn_call fn vs w1.
Proof.
  intros f g args fn vs w w1 Hw Hf Hr. rewrite eval_tokens_print by exact Hw.
  destruct (fn_call fn vs w1) as [r w2] eqn:E. apply runs_iff_denote. eapply R_call; eassumption.
Qed.

Lemma empty_call_alone : forall f g fn w, (custom_function_call (cfg c) = false -> g = Parenthesis) ->
  get_function c f = Some fn ->
  eval_tokens c dbg [TFunction f; TOpen (grouping_open g); TClose (grouping_close g)] w = fn_call fn [] w.
Proof.
  intros f g fn w Hg Hf.
  assert (E : infix_to_rpn c dbg [TFunction f; TOpen (grouping_open g); TClose (grouping_close g)]
              = Ok [TArgCount 1; TFunction f]).
  { unfold infix_to_rpn. cbn [yard_loop hd_error yard_step].
    assert (E1 : negb (custom_function_call (cfg c)) && negb (contains_symbol (@TOpen V (grouping_open g)) 40%N) = false).
    { destruct (custom_function_call (cfg c)) eqn:Ec; [reflexivity|]. rewrite (Hg eq_refl). reflexivity. }
    rewrite E1. cbn [rbind]. unfold push_implicit, implicit_here.
    destruct (implicit_mul (cfg c)); destruct g; reflexivity. }
  unfold eval_tokens, bind at 1, lift. rewrite E. unfold bind at 1. cbn [rpn_loop is_some].
  rewrite andb_false_r, Hf. cbn [pop_args rev app]. unfold bind, ret.
  destruct (fn_call fn [] w) as [[r|k|] w']; reflexivity.
Qed.

Lemma prefix_on_atom : forall u a o r w, is_atom a = true -> has_notation c u Prefix -> wf c r ->
  get_binary c o <> None -> (forall o', In o' (left_ops r) -> ~ groups_left c o o') ->
  eval_tokens c dbg ([TUnary u] ++ print a ++ [TBinary o] ++ print r) w = denote c (EBin o (EPre u a) r) w.
Proof.
  intros u a o r w Ha Hu Hr Ho Hl. rewrite <- (eval_tokens_print c dbg).
  - f_equal.
  - simpl. rewrite Ha. simpl. assert (Hw : wf c a) by (destruct a; try discriminate Ha; exact I).
    repeat split; auto. intros o' [].
Qed.

Lemma prefix_takes_rest : forall u e w, wf c e -> has_notation c u Prefix -> starts_with_atom e = false ->
  eval_tokens c dbg ([TUnary u] ++ print e) w = bind (denote c e) (apply_unary c u) w.
Proof.
  intros u e w He Hu Hs. change ([TUnary u] ++ print e) with (print (EPre u e)). rewrite eval_tokens_print; [reflexivity|].
  simpl. auto.
Qed.

Lemma implied_mul_after : forall l o a r w, implicit_mul (cfg c) = true -> wf c l -> wf c a -> wf c r ->
  get_binary c o <> None -> ends_in_prefix l = false -> (forall o', In o' (right_ops l) -> groups_left c o' o) ->
  juxtaposed a r = true -> (forall o', In o' (left_ops r) -> ~ groups_left c times o') ->
  eval_tokens c dbg (print l ++ [TBinary o] ++ print a ++ print r) w = denote c (EBin o l (EMul a r)) w.
Proof.
  intros l o a r w Hi Hl Ha Hr Ho Hp Hrl Hj Hlr. rewrite <- (eval_tokens_print c dbg); [reflexivity|].
  simpl. repeat split; auto; try (intros o' []).
Qed.

Lemma implied_mul_chain : forall a b r w, implicit_mul (cfg c) = true -> wf c a -> wf c b -> wf c r ->
  juxtaposed a b = true -> juxtaposed b r = true -> (forall o', In o' (left_ops r) -> ~ groups_left c times o') ->
  eval_tokens c dbg (print a ++ print b ++ print r) w = denote c (EMul a (EMul b r)) w.
Proof.
  intros a b r w Hi Ha Hb Hr Hj Hj2 Hlr. rewrite <- (eval_tokens_print c dbg); [reflexivity|].
  assert (Hj' : juxtaposed a (EMul b r) = true).
  { unfold juxtaposed in *. cbn [print]. destruct (print b) as [|t q]; [|exact Hj]. destruct a; try discriminate. destruct a; discriminate. }
  simpl wf. repeat split; auto; intros o' [].
Qed.

End More.
