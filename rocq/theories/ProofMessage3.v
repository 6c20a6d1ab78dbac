(** * Messages: the whole evaluation of tokens and of texts *)
From Coq Require Import List NArith ZArith Bool Arith Lia String.
From Verif Require Import ModelBase ModelContext ModelEvaluator ModelText ModelStr ModelSplit ModelTokenizer ModelDefault ModelMessage
  SpecExpr SpecGrammar SpecTokens SpecBlame SpecMessage ProofYard ProofMessage ProofMessage2.
Import ListNotations.
Local Open Scope list_scope.

Section Whole.
Context {V W : Type}.
Variable c : ctx V W.
Variable S_ : voice V W.
Variable dbg : bool.
Variable parse : str -> option V.
Notation tok := (token V).

Lemma eval_tokens_verdict : forall ts w k m w', eval_tokens_m c S_ dbg ts w = (Errs k m, w') ->
  (disorder c S_ ts k m \/ (k = InvalidInput /\ missing c ts m)) \/ failure c S_ ts w' k m.
Proof.
  intros ts w k m w' H. unfold eval_tokens_m in H. pose proof (infix_verdict c S_ dbg ts) as I. destruct (infix_to_rpn_m c S_ dbg ts) as [rpn|k1 m1|]; [| |discriminate].
  - destruct (rpn_loop_m c S_ dbg ts rpn [] None w) as [[vs|k1 m1|] w1] eqn:R; [| |discriminate].
    + left. left. assert (E : (Errs InvalidExpression (kind_text InvalidExpression), w1) = (Errs (A := V) k m, w')) by (destruct vs as [|v [|]]; [exact H|discriminate|exact H]). injection E as <- <- _. apply not_one_value.
    + injection H as <- <- <-. exact (rpn_verdict c S_ dbg ts rpn [] None w _ _ _ (proj1 I) (proj2 I) R).
  - injection H as <- <- <-. left. exact I.
Qed.

Lemma classify_text : forall prev s n k m, parse s = None -> classify_m c S_ parse prev s n = Errs k m ->
  operator_word_only c parse s /\ (prev = None \/ n = false) /\ k = InvalidExpression /\ m = m_operands S_ prev s n.
Proof.
  intros prev s n k m P H. unfold classify_m in H.
  destruct (is_variable c s) eqn:V1; [discriminate|]. destruct (is_constant c s) eqn:V2; [discriminate|]. destruct (is_function_name c s) eqn:V3; [discriminate|].
  unfold is_variable, is_constant, is_function_name, is_some in V1, V2, V3. destruct (get_variable c s) eqn:G1; [discriminate|]. destruct (get_constant c s) eqn:G2; [discriminate|]. destruct (get_function c s) eqn:G3; [discriminate|].
  destruct (is_binary_function c s || is_unary_function c s) eqn:O.
  - pose proof (is_unary_no_error c parse prev s n) as N. destruct (is_unary c parse prev s n) as [[]|k1|]; [discriminate| |exfalso; exact (N _ eq_refl)|discriminate].
    destruct (negb (is_some prev) || negb n) eqn:X; [|discriminate]. injection H as <- <-.
    assert (Q : operator_word_only c parse s). { repeat split; try assumption. unfold is_binary_function, is_unary_function, is_some in O. destruct (get_binary c s); [right; discriminate|]. destruct (get_unary c s); [left; discriminate|discriminate]. }
    repeat split; try apply Q. destruct prev; [right; destruct n; [discriminate|reflexivity]|left; reflexivity].
  - destruct (str_eqb s (lit ",")); [discriminate|]. destruct (str_eqb s (lit " ")); [discriminate|].
    destruct (if Nat.eqb (byte_len s) 1 then match s with [] => None | ch :: _ => option_map (fun p => (ch, fst p)) (get_group_symbol (cfg c) ch) end else None) as [[ch o]|]; discriminate.
Qed.

Lemma loop_text : forall ws rest pre prev k m, ws = pre ++ rest -> (match prev with None => pre = [] | Some p => exists l, pre = l ++ [p] end) ->
  tokenize_loop_m c S_ parse prev rest = Errs k m -> bad_words c S_ parse ws k m.
Proof.
  intros ws rest. remember (List.length rest) as n eqn:L. revert rest L. induction n as [n IH] using lt_wf_ind. intros rest L pre prev k m E P H. destruct rest as [|s rest]; [discriminate|].
  assert (Next : forall (pre' rest' : list str) (p : str) (f : list tok -> told (list tok)), (List.length rest' < n)%nat -> ws = (pre' ++ [p]) ++ rest' -> (forall l, exists l', f l = Says l') ->
    tbind (tokenize_loop_m c S_ parse (Some p) rest') f = Errs k m -> bad_words c S_ parse ws k m).
  { intros pre' rest' p f Ln E' F X. destruct (tokenize_loop_m c S_ parse (Some p) rest') as [l|k1 m1|] eqn:Y; cbn [tbind] in X; [destruct (F l) as [l' Fl]; rewrite Fl in X; discriminate| |discriminate].
    injection X as <- <-. exact (IH _ Ln rest' eq_refl (pre' ++ [p]) (Some p) _ _ E' (ex_intro _ pre' eq_refl) Y). }
  cbn [List.length] in L. cbn [tokenize_loop_m] in H. destruct (parse s) as [v|] eqn:Ps.
  - destruct rest as [|im rest]; [discriminate|]. destruct (complex_number (cfg c) && str_eqb im (lit "i")) eqn:C.
    + apply andb_true_iff in C. destruct C as [C1 C2]. apply str_eqb_eq in C2. subst im. destruct (parse (s ++ lit "i")) as [v'|] eqn:Pi.
      * apply (Next (pre ++ [s]) rest (lit "i") (fun l => Says (TNumber v' :: l))); [cbn in L; lia|rewrite <- !app_assoc; exact E|eauto|exact H].
      * injection H as <- <-. unfold m_failed. rewrite <- app_assoc. refine (not_complex c S_ parse ws pre s rest E C1 _ Pi). congruence.
    + apply (Next pre (im :: rest) s (fun l => Says (TNumber v :: l))); [cbn in *; lia|rewrite <- app_assoc; exact E|eauto|exact H].
  - destruct (classify_m c S_ parse prev s (negb (Nat.eqb (List.length rest) 0))) as [o|k1 m1|] eqn:Cl; cbn [tbind] in H; [| |discriminate].
    + apply (Next pre rest s (fun l => Says match o with Some t => t :: l | None => l end)); [lia|rewrite <- app_assoc; exact E|eauto|exact H].
    + injection H as <- <-. destruct (classify_text _ _ _ _ _ Ps Cl) as (Q & X & -> & ->). unfold m_operands. destruct prev as [p|].
      * destruct X as [X|X]; [discriminate|]. rewrite X. destruct P as [l ->]. destruct rest as [|r rest]; [|discriminate X]. apply (last_operator c S_ parse ws l p s); [rewrite E, <- app_assoc; reflexivity|exact Q|apply debug_option_q|apply debug_option_q].
      * subst pre. cbn [app] in E. apply (first_operator c S_ parse ws s rest); [exact E|exact Q|apply (debug_option_q S_ None)|]. destruct rest; apply debug_option_q.
Qed.
Lemma tokenize_verdict : forall splitter s k m, tokenize_m c S_ parse splitter s = Errs k m -> (trim s = [] /\ k = Empty /\ m = lit "Expression is empty") \/ bad_words c S_ parse (splitter s) k m.
Proof.
  intros splitter s k m H. unfold tokenize_m in H. destruct (trim s); [left; injection H as <- <-; auto|]. right. exact (loop_text (splitter s) (splitter s) [] None k m eq_refl eq_refl H).
Qed.

(** Names in the tokens of a text. *)
Definition found (t : tok) : Prop :=
  match t with
  | TVariable x => get_variable c x <> None | TConstant x => get_constant c x <> None | TFunction f => get_function c f <> None
  | TUnary u => get_unary c u <> None | TBinary o => get_unary c o <> None \/ get_binary c o <> None | _ => True end.
Lemma classify_found : forall prev s n t, classify c parse prev s n = Ok (Some t) -> found t.
Proof.
  intros prev s n t H. unfold classify in H.
  destruct (is_variable c s) eqn:V1; [injection H as <-; unfold is_variable, is_some in V1; cbn; destruct (get_variable c s); [discriminate|discriminate V1]|].
  destruct (is_constant c s) eqn:V2; [injection H as <-; unfold is_constant, is_some in V2; cbn; destruct (get_constant c s); [discriminate|discriminate V2]|].
  destruct (is_function_name c s) eqn:V3; [injection H as <-; unfold is_function_name, is_some in V3; cbn; destruct (get_function c s); [discriminate|discriminate V3]|].
  destruct (is_binary_function c s || is_unary_function c s) eqn:O.
  - destruct (is_unary c parse prev s n) as [[]|k1|] eqn:U; cbn [rbind] in H; try discriminate.
    + injection H as <-. cbn. unfold is_unary in U. destruct (get_unary c s); [discriminate|discriminate U].
    + destruct (negb (is_some prev) || negb n); [discriminate|]. injection H as <-. cbn. unfold is_binary_function, is_unary_function, is_some in O. destruct (get_binary c s); [right; discriminate|]. destruct (get_unary c s); [left; discriminate|discriminate O].
  - destruct (str_eqb s (lit ",")); [injection H as <-; exact I|]. destruct (str_eqb s (lit " ")); [discriminate|].
    destruct (if Nat.eqb (byte_len s) 1 then match s with [] => None | ch :: _ => option_map (fun p => (ch, fst p)) (get_group_symbol (cfg c) ch) end else None) as [[ch o]|]; injection H as <-; [destruct (char_eqb ch o)|]; exact I.
Qed.
Lemma loop_found : forall n raw prev ts, (List.length raw <= n)%nat -> tokenize_loop c parse prev raw = Ok ts -> Forall found ts.
Proof.
  induction n as [|n IH]; intros [|s rest] prev ts L H; cbn [List.length] in L; try lia; try (injection H as <-; constructor). cbn [tokenize_loop] in H. destruct (parse s) as [v|].
  - destruct rest as [|im rest]; [injection H as <-; repeat constructor|]. destruct (_ && _).
    + destruct (parse (s ++ im)); [|discriminate]. destruct (tokenize_loop c parse (Some im) rest) as [l| |] eqn:T; try discriminate. injection H as <-. constructor; [exact I|]. apply (IH rest (Some im) l ltac:(cbn in L; lia) T).
    + destruct (tokenize_loop c parse (Some s) (im :: rest)) as [l| |] eqn:T; try discriminate. injection H as <-. constructor; [exact I|]. apply (IH (im :: rest) (Some s) l ltac:(cbn in *; lia) T).
  - destruct (classify c parse prev s (negb (Nat.eqb (List.length rest) 0))) as [o| |] eqn:C; try discriminate. cbn [rbind] in H. destruct (tokenize_loop c parse (Some s) rest) as [l| |] eqn:T; try discriminate. injection H as <-.
    pose proof (IH rest (Some s) l ltac:(lia) T) as F. destruct o as [t|]; [|exact F]. constructor; [exact (classify_found _ _ _ _ C)|exact F].
Qed.
Lemma tokenize_found : forall splitter s ts, tokenize c parse splitter s = Ok ts -> Forall found ts.
Proof. intros splitter s ts H. unfold tokenize in H. destruct (trim s); [discriminate|]. exact (loop_found _ _ _ _ (le_n _) H). Qed.

(** Expressions. *)
Lemma after_assoc : forall {A B C} (m : speech A) (f : A -> speech B) (g : B -> speech (W := W) C) w, afterwards (afterwards m f) g w = afterwards m (fun a => afterwards (f a) g) w.
Proof. intros. unfold afterwards. destruct (m w) as [[] ]; reflexivity. Qed.
Lemma after_ext : forall {A B} (m : speech A) (f g : A -> speech (W := W) B) w, (forall a w', m w = (Says a, w') -> f a w' = g a w') -> afterwards m f w = afterwards m g w.
Proof. intros A B m f g w H. unfold afterwards. destruct (m w) as [[a| |] w'] eqn:E; auto. Qed.
Lemma all_length : forall (ms : list (speech V)) (w : W) vs w', all_of ms w = (Says vs, w') -> List.length vs = List.length ms.
Proof.
  induction ms as [|m ms IH]; intros w vs w' H; cbn [all_of] in H.
  - unfold says in H. injection H as <- <-. reflexivity.
  - unfold afterwards in H. destruct (m w) as [[v| |] w1]; try discriminate. destruct (all_of ms w1) as [[vs1| |] w2] eqn:E; try discriminate. unfold says in H. injection H as <- <-. cbn [List.length]. f_equal. exact (IH _ _ _ E).
Qed.
Lemma called_after : forall (r : M W V) text (next : V -> W -> told (list V) * W) w, called (r w) (text w) next = afterwards (outcome r text) next w.
Proof. intros r text next w. unfold called, afterwards, outcome. destruct (r w) as [[] ]; reflexivity. Qed.
Notation loop := (rpn_loop_m c S_ dbg).
Lemma pop_exact : forall (xs vals args : list V), pop_args (List.length xs) (xs ++ vals) args = (vals, args ++ xs).
Proof. induction xs as [|x xs IH]; intros vals args; cbn; [rewrite app_nil_r; reflexivity|]. rewrite IH, <- app_assoc. reflexivity. Qed.
Lemma rpn_told : forall ts e rest vals w, loop ts (postfix e ++ rest) vals None w = afterwards (tell c S_ e) (fun v => loop ts rest (v :: vals) None) w.
Proof.
  intros ts. induction e as [v|x|x|g e IH|f g args IH|u e IH|e u IH|o l r IHl IHr|l r IHl IHr] using expr_ind'; intros rest vals w; cbn [postfix tell].
  - reflexivity.
  - cbn [app rpn_loop_m]. destruct (get_variable c x); reflexivity.
  - cbn [app rpn_loop_m]. destruct (get_constant c x); reflexivity.
  - apply IH.
  - rewrite <- app_assoc.
    assert (Hargs : forall rest vals w, loop ts (List.concat (map postfix args) ++ rest) vals None w = afterwards (all_of (map (tell c S_) args)) (fun vs => loop ts rest (rev vs ++ vals) None) w).
    { clear rest vals w. induction IH as [|a args Ha Hs IHs]; intros rest vals w; [reflexivity|]. cbn [map List.concat all_of]. rewrite <- app_assoc, Ha, after_assoc. apply after_ext. intros v w' _.
      rewrite IHs, after_assoc. apply after_ext. intros vs w'' _. unfold afterwards, says. cbn [rev]. rewrite <- app_assoc. reflexivity. }
    rewrite Hargs, after_assoc. apply after_ext. intros vs w' Hs. apply all_length in Hs. rewrite map_length in Hs. cbn [app rpn_loop_m]. rewrite andb_false_r. unfold tell_function.
    destruct (get_function c f) as [fn|]; [|reflexivity]. rewrite <- Hs, <- rev_length, pop_exact. cbn [app]. rewrite rev_involutive. apply (called_after (fn_call fn vs) (v_function S_ f vs)).
  - rewrite <- app_assoc, IH, after_assoc. apply after_ext. intros v w' _. cbn [app rpn_loop_m]. unfold tell_unary. destruct (get_unary c u) as [fn|]; [apply (called_after (uf_call fn v) (v_unary S_ u v))|reflexivity].
  - rewrite <- app_assoc, IH, after_assoc. apply after_ext. intros v w' _. cbn [app rpn_loop_m]. unfold tell_unary. destruct (get_unary c u) as [fn|]; [apply (called_after (uf_call fn v) (v_unary S_ u v))|reflexivity].
  - rewrite <- !app_assoc, IHl, after_assoc. apply after_ext. intros x w' _. rewrite IHr, after_assoc. apply after_ext. intros y w'' _. cbn [app rpn_loop_m]. unfold tell_binary. destruct (get_binary c o) as [fn|]; [apply (called_after (bf_call fn x y) (v_binary S_ o x y))|reflexivity].
  - rewrite <- !app_assoc, IHl, after_assoc. apply after_ext. intros x w' _. rewrite IHr, after_assoc. apply after_ext. intros y w'' _. cbn [app rpn_loop_m]. unfold tell_binary. destruct (get_binary c times) as [fn|]; [apply (called_after (bf_call fn x y) (v_binary S_ times x y))|reflexivity].
Qed.
Lemma eval_tokens_told : forall e w, wf c e -> eval_tokens_m c S_ dbg (print e) w = tell c S_ e w.
Proof.
  intros e w Hwf. unfold eval_tokens_m. pose proof (infix_to_rpn_print c dbg e Hwf) as I. rewrite <- (infix_same c S_ dbg) in I. destruct (infix_to_rpn_m c S_ dbg (print e)) as [rpn|k m|]; cbn [heard] in I; try discriminate. injection I as ->.
  pose proof (rpn_told (print e) e [] [] w) as R. rewrite app_nil_r in R. rewrite R. unfold afterwards. cbn [rpn_loop_m]. destruct (tell c S_ e w) as [[v|k m|] w']; reflexivity.
Qed.
End Whole.
