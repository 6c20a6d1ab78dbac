(** * Whatever is accepted is evaluated as a tree *)
From Coq Require Import List NArith Bool Arith Lia Permutation.
From Verif Require Import ModelBase ModelContext ModelEvaluator SpecExpr SpecGrammar SpecTokens SpecAccepted ProofYard ProofRpn ProofTokens ProofTokens2.
Import ListNotations.

Section Accepted.
Context {V W : Type}.
Variable c : ctx V W.
Variable dbg : bool.
Notation tok := (token V).
Notation loop := (rpn_loop c dbg).

Lemma seq_app : forall A (a b : list (M W A)) w, sequence (a ++ b) w = bind (sequence a) (fun x => bind (sequence b) (fun y => ret (x ++ y))) w.
Proof.
  induction a as [|m a IH]; intros b w; cbn [app sequence].
  - unfold bind, ret. destruct (sequence b w) as [[] ]; reflexivity.
  - rewrite bind_assoc. apply bind_ext. intros v w' _. unfold bind at 1. rewrite IH. unfold bind, ret. destruct (sequence a w') as [[x| |] w1]; try reflexivity. destruct (sequence b w1) as [[y| |] w2]; reflexivity.
Qed.
(** The trees [es] (the last on top of the stack) have the values [vals] (top first). *)
Definition built (w0 : W) (es : list (expr V)) (vals : list V) (w : W) : Prop := sequence (map (denote c) es) w0 = (Ok (rev vals), w).
Lemma built_push : forall w0 es vals w e v w', built w0 es vals w -> denote c e w = (Ok v, w') -> built w0 (es ++ [e]) (v :: vals) w'.
Proof.
  intros w0 es vals w e v w' H He. unfold built in *. rewrite map_app, seq_app. unfold bind at 1. rewrite H. cbn [map sequence]. unfold bind. rewrite He. unfold ret. reflexivity.
Qed.
(** Taking the top [k] trees off. *)
Lemma built_split : forall w0 es vals w k, built w0 es vals w -> (k <= length vals)%nat ->
  exists pre args w1, es = pre ++ args /\ length args = k /\ built w0 pre (skipn k vals) w1 /\ sequence (map (denote c) args) w1 = (Ok (rev (firstn k vals)), w).
Proof.
  intros w0 es vals w k H Hk. unfold built in H. pose proof (sequence_length _ _ _ _ H) as L. rewrite map_length, rev_length in L.
  set (n := (length es - k)%nat). exists (firstn n es), (skipn n es). rewrite <- (firstn_skipn n es) in H. rewrite map_app, seq_app in H. unfold bind in H.
  destruct (sequence (map (denote c) (firstn n es)) w0) as [[x| |] w1] eqn:E1; try discriminate.
  destruct (sequence (map (denote c) (skipn n es)) w1) as [[y| |] w2] eqn:E2; try discriminate. unfold ret in H. injection H as H ->.
  exists w1. pose proof (sequence_length _ _ _ _ E1) as L1. pose proof (sequence_length _ _ _ _ E2) as L2. rewrite map_length in L1, L2. rewrite firstn_length in L1. rewrite skipn_length in L2.
  assert (Hx : length x = n) by lia. assert (Hy : length y = k) by lia.
  assert (S : rev (firstn k vals) = y /\ rev (skipn k vals) = x).
  { rewrite <- (firstn_skipn k vals), rev_app_distr in H. 
    assert (LX : length (rev (skipn k vals)) = length x) by (rewrite rev_length, skipn_length; lia).
    clear - H LX. revert x H LX. generalize (rev (skipn k vals)). intros l. induction l as [|a l IH]; intros [|b x] H LX; try discriminate LX.
    - split; [symmetry; exact H|reflexivity].
    - injection H as -> H. injection LX as LX. destruct (IH x H LX) as [I1 I2]. split; [exact I1|f_equal; exact I2]. }
  destruct S as [S1 S2]. split; [symmetry; apply firstn_skipn|]. split; [rewrite skipn_length; lia|]. unfold built. rewrite S2, S1. split; [exact E1|exact E2].
Qed.
Lemma pop_args_spec : forall n (vals args : list V), pop_args n vals args = (skipn n vals, args ++ firstn n vals).
Proof.
  induction n as [|n IH]; intros vals args; cbn [pop_args firstn skipn]; [rewrite app_nil_r; reflexivity|]. destruct vals as [|v vals]; rewrite IH.
  - destruct n; cbn [skipn firstn]; rewrite app_nil_r; reflexivity.
  - rewrite <- app_assoc. reflexivity.
Qed.
Lemma firstn_min : forall A n (l : list A), firstn n l = firstn (Nat.min n (length l)) l.
Proof. intros A n l. destruct (Nat.le_ge_cases n (length l)) as [H|H]; [rewrite Nat.min_l by exact H; reflexivity|]. rewrite Nat.min_r by exact H. rewrite firstn_all, firstn_all2 by exact H. reflexivity. Qed.
Lemma skipn_min : forall A n (l : list A), skipn n l = skipn (Nat.min n (length l)) l.
Proof. intros A n l. destruct (Nat.le_ge_cases n (length l)) as [H|H]; [rewrite Nat.min_l by exact H; reflexivity|]. rewrite Nat.min_r by exact H. rewrite skipn_all, skipn_all2 by exact H. reflexivity. Qed.

Lemma loop_trees : forall n rpn, (length rpn <= n)%nat -> paired rpn -> forall w0 es vals w done out w',
  built w0 es vals w -> flat_map leaves es = operands done -> flat_map applied es = operations done ->
  loop rpn vals None w = (Ok out, w') ->
  exists es', built w0 es' out w' /\ flat_map leaves es' = operands (done ++ rpn) /\ flat_map applied es' = operations (done ++ rpn).
Proof.
  induction n as [|n IH]; intros [|t rpn] Hn Hp w0 es vals w done out w' B L K H; cbn [length] in Hn; try lia.
  - cbn [rpn_loop] in H. unfold ret in H. injection H as <- <-. exists es. rewrite app_nil_r. auto.
  - cbn [rpn_loop] in H. unfold ret in H. injection H as <- <-. exists es. rewrite app_nil_r. auto.
  - change (t :: rpn) with ([t] ++ rpn). rewrite app_assoc. cbn [rpn_loop] in H.
    assert (ATOM : forall e v, denote c e w = (Ok v, w) -> leaves e = [t] -> applied e = [] -> operands [t] = [t] -> operations [t] = [] -> paired rpn ->
      loop rpn (v :: vals) None w = (Ok out, w') ->
      exists es', built w0 es' out w' /\ flat_map leaves es' = operands ((done ++ [t]) ++ rpn) /\ flat_map applied es' = operations ((done ++ [t]) ++ rpn)).
    { intros e v He Hl Hc Ho Hq Hp' H'. apply (IH rpn ltac:(lia) Hp' w0 (es ++ [e]) (v :: vals) w (done ++ [t]) out w' (built_push _ _ _ _ _ _ _ B He)).
      - rewrite flat_map_app. cbn [flat_map]. unfold operands in *. rewrite filter_app, L, Hl, Ho. reflexivity.
      - rewrite flat_map_app. cbn [flat_map]. unfold operations in *. rewrite filter_app, K, Hc, Hq. reflexivity.
      - exact H'. }
    assert (OP : forall k u f v w1, (k <= length vals)%nat -> operands u = [] -> operations u = [f] ->
      (forall args w2, length args = k -> sequence (map (denote c) args) w2 = (Ok (rev (firstn k vals)), w) -> exists e, denote c e w2 = (Ok v, w1) /\ leaves e = flat_map leaves args /\ applied e = flat_map applied args ++ [f]) ->
      forall rest, (length rest <= n)%nat -> paired rest -> loop rest (v :: skipn k vals) None w1 = (Ok out, w') ->
      exists es', built w0 es' out w' /\ flat_map leaves es' = operands ((done ++ u) ++ rest) /\ flat_map applied es' = operations ((done ++ u) ++ rest)).
    { intros k u f v w1 Hk Ho Hq Hf rest Hn' Hp' H'. destruct (built_split _ _ _ _ _ B Hk) as (pre & args & w2 & -> & La & Bp & Sa). destruct (Hf args w2 La Sa) as (e & He & El & Ec).
      apply (IH rest Hn' Hp' w0 (pre ++ [e]) (v :: skipn k vals) w1 (done ++ u) out w' (built_push _ _ _ _ _ _ _ Bp He)).
      - rewrite flat_map_app in *. cbn [flat_map]. rewrite app_nil_r, El. unfold operands in *. rewrite filter_app, Ho, app_nil_r. exact L.
      - rewrite flat_map_app in *. cbn [flat_map]. rewrite app_nil_r, Ec. unfold operations in *. rewrite filter_app, Hq, <- K, app_assoc. reflexivity.
      - exact H'. }
    destruct t as [v|x|x|f|o|u|k|k|k|x|]; try discriminate H.
    + apply (ATOM (ENum v) v); try reflexivity; [exact Hp|exact H].
    + destruct (get_variable c x) as [v|] eqn:Ev; [|discriminate H]. apply (ATOM (EVar x) v); try reflexivity; [|exact Hp|exact H]. cbn [denote]. rewrite Ev. reflexivity.
    + destruct (get_constant c x) as [v|] eqn:Ev; [|discriminate H]. apply (ATOM (EConst x) v); try reflexivity; [|exact Hp|exact H]. cbn [denote]. rewrite Ev. reflexivity.
    + destruct (get_function c f); discriminate H.
    + destruct (get_binary c o) as [f|] eqn:Ef; [|discriminate H]. destruct vals as [|x [|y vals]]; try discriminate H. unfold bind in H. destruct (bf_call f y x w) as [[r| |] w1] eqn:Er; try discriminate H.
      apply (OP 2%nat [TBinary o] (TBinary o) r w1); try reflexivity; [cbn [length]; lia| |lia|exact Hp|exact H].
      intros args w2 La Sa. destruct args as [|l [|r' [|]]]; try discriminate La. exists (EBin o l r'). cbn [leaves applied flat_map]. rewrite !app_nil_r. split; [|split; [reflexivity|rewrite <- app_assoc; reflexivity]].
      cbn [denote]. cbn [map sequence firstn rev app] in Sa. unfold bind, ret in *. destruct (denote c l w2) as [[a| |] w3]; try discriminate Sa. destruct (denote c r' w3) as [[b| |] w4]; try discriminate Sa. injection Sa as -> -> ->.
      unfold apply_binary. rewrite Ef. exact Er.
    + destruct (get_unary c u) as [f|] eqn:Ef; [|discriminate H]. destruct vals as [|x vals]; try discriminate H. unfold bind in H. destruct (uf_call f x w) as [[r| |] w1] eqn:Er; try discriminate H.
      apply (OP 1%nat [TUnary u] (TUnary u) r w1); try reflexivity; [cbn [length]; lia| |lia|exact Hp|exact H].
      intros args w2 La Sa. destruct args as [|l [|]]; try discriminate La. exists (EPre u l). cbn [leaves applied flat_map]. rewrite !app_nil_r. split; [|split; reflexivity].
      cbn [denote]. cbn [map sequence firstn rev app] in Sa. unfold bind, ret in *. destruct (denote c l w2) as [[a| |] w3]; try discriminate Sa. injection Sa as -> ->.
      unfold apply_unary. rewrite Ef. exact Er.
    + cbn [is_some] in H. rewrite andb_false_r in H. cbn [paired] in Hp. destruct rpn as [|[v|x|x|f|o|u|k'|k'|k'|x|] rpn]; try contradiction. cbn [rpn_loop] in H. destruct (get_function c f) as [fn|] eqn:Ef; [|discriminate H].
      rewrite pop_args_spec in H. cbn [app] in H. unfold bind in H. destruct (fn_call fn (rev (firstn k vals)) w) as [[r| |] w1] eqn:Er; try discriminate H.
      change (TFunction f :: rpn) with ([TFunction f] ++ rpn). rewrite app_assoc. rewrite <- (app_assoc done). rewrite skipn_min in H. cbn [length] in Hn.
      apply (OP (Nat.min k (length vals)) [TArgCount k; TFunction f] (TFunction f) r w1); try reflexivity; [lia| |lia|exact Hp|exact H].
      intros args w2 La Sa. exists (ECall f Parenthesis args). cbn [leaves applied]. split; [|split; reflexivity]. cbn [denote]. unfold bind. rewrite Sa. unfold apply_function. rewrite Ef, <- firstn_min. exact Er.
Qed.
Lemma eval_tree : forall toks w v w', eval_tokens c dbg toks w = (Ok v, w') ->
  exists e, denote c e w = (Ok v, w') /\ leaves e = operands toks /\
    Permutation (applied e) (operations toks ++ repeat (TBinary times) (if implicit_mul (cfg c) then juxtapositions toks else 0)).
Proof.
  intros toks w v w' H. unfold eval_tokens, bind, lift in H. destruct (infix_to_rpn c dbg toks) as [rpn| |] eqn:E; try discriminate H.
  destruct (rpn_loop c dbg rpn [] None w) as [[out| |] w1] eqn:Er; try discriminate H. destruct out as [|v0 [|]]; try discriminate H. unfold ret in H. injection H as -> ->.
  destruct (infix_conserved c dbg toks rpn E) as (C1 & C2 & _).
  destruct (loop_trees (length rpn) rpn (le_n _) (infix_paired c dbg toks rpn E) w [] [] w [] [v] w' eq_refl eq_refl eq_refl Er) as (es & B & L & K).
  unfold built in B. pose proof (sequence_length _ _ _ _ B) as Len. rewrite map_length in Len. destruct es as [|e [|]]; try discriminate Len. exists e.
  cbn [flat_map app] in L, K. rewrite app_nil_r in L, K. rewrite L, K. split; [|split; [exact C1|exact C2]].
  cbn [map sequence rev app] in B. unfold bind, ret in B. destruct (denote c e w) as [[a| |] w2]; try discriminate B. injection B as -> ->. reflexivity.
Qed.
End Accepted.
