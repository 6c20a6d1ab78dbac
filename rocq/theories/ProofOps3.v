(** * Facts about the built-in functions that hold for every number type *)
From Coq Require Import List NArith ZArith Bool Arith Lia String.
From Verif Require Import ModelBase ModelContext ModelEvaluator ModelText ModelDefault ModelFloat ModelNum ModelOps SpecText SpecExpr SpecTokens SpecOps
  ProofText ProofDefault ProofBuild ProofCtx ProofRpn ProofTokens2.
Import ListNotations.

Section Any.
Context {V W : Type}.
Variable n : num V.
Variable L : libm.
Variable random : W -> f64 * W.
Variable docs : bool.

(** [calm f]: no panic, and the error [InvalidArgumentCount] exactly for argument counts outside [ok]. *)
Definition calm (ok : nat -> bool) (f : func V W) : Prop := forall args w,
  fst (fn_call f args w) <> Panic /\ (fst (fn_call f args w) = Err InvalidArgumentCount <-> ok (List.length args) = false).

Definition fine (r : res V) : Prop := r <> Panic /\ r <> Err InvalidArgumentCount.
Lemma fine_over : forall o, fine (or_overflow o).
Proof. intros [v|]; split; discriminate. Qed.
Lemma fine_finite : forall f, fine (finite_result n f).
Proof. intros f. unfold finite_result. destruct (_ || _); [split; discriminate|apply fine_over]. Qed.
Lemma fine_finite_opt : forall o, fine (finite_result_opt n o).
Proof. intros [f|]; [apply fine_finite|split; discriminate]. Qed.
Lemma fine_float : forall x (k : f64 -> res V), (forall f, fine (k f)) -> fine (rbind (try_to_float n x) k).
Proof.
  intros x k H. unfold try_to_float. destruct (n_to_f64 n x) as [f|]; [|split; discriminate]. destruct (_ || _); [split; discriminate|]. apply H.
Qed.
Lemma calm_one : forall name f, (forall x, fine (f x)) -> calm (fun k => (k =? 1)%nat) (fun_ name (one_arg f)).
Proof.
  intros name f H args w. unfold fun_, one_arg, lift. cbn [fn_call fst]. destruct args as [|x [|y args]]; cbn; try (split; [discriminate|split; reflexivity]).
  destruct (H x). split; [assumption|]. split; [contradiction|discriminate].
Qed.
Lemma calm_forward : forall name m, calm (fun k => (k =? 1)%nat) (forward n name m).
Proof.
  intros name m. apply (calm_one name (fun x => rbind (try_to_float n x) (fun f => or_overflow (n_from_f64 n (m (f_approx f)))))).
  intros x. apply fine_float. intros f. apply fine_over.
Qed.
Lemma calm_forward_inv : forall name m, calm (fun k => (k =? 1)%nat) (forward_inv n name m).
Proof. intros. apply calm_forward. Qed.
Lemma calm_trig : forall m, calm (fun k => (k =? 1)%nat) (trig n L m).
Proof. intros. apply calm_one. intros. apply fine_finite_opt. Qed.
Lemma calm_trig_rec : forall m name, calm (fun k => (k =? 1)%nat) (trig_rec n L m name).
Proof. intros. apply calm_one. intros. apply fine_finite_opt. Qed.
Lemma calm_arc : forall m, calm (fun k => (k =? 1)%nat) (arc_trig n L m).
Proof. intros. apply calm_one. intros. apply fine_finite_opt. Qed.
Lemma calm_arc_rec : forall m name, calm (fun k => (k =? 1)%nat) (arc_trig_rec n L m name).
Proof. intros. apply calm_one. intros. apply fine_finite_opt. Qed.
Lemma calm_abs : calm (fun k => (k =? 1)%nat) (c_abs n).
Proof.
  apply (calm_one "abs" (fun x => if n_ge n x (n_zero n) then Ok x else or_overflow (n_cneg n x))). intros x.
  destruct (n_ge n x (n_zero n)); [split; discriminate|apply fine_over].
Qed.

Lemma fold_fine : forall (op : V -> V -> option V) args acc,
  match fold_args (fun a x => or_overflow (op a x)) acc args with
  | Ok None => args = [] /\ acc = None | Ok (Some _) => args <> [] \/ acc <> None | Err k => (args <> [] \/ acc <> None) /\ k = Overflow | Panic => False end.
Proof.
  intros op. induction args as [|x args IH]; intros acc; cbn [fold_args].
  - destruct acc; [right; discriminate|auto].
  - destruct acc as [a|].
    + destruct (op a x) as [r|]; cbn [or_overflow rbind]; [|split; [left; discriminate|reflexivity]]. specialize (IH (Some r)).
      destruct (fold_args _ (Some r) args) as [[v|]|k|]; [left; discriminate|destruct IH; discriminate|split; [left; discriminate|apply IH]|exact IH].
    + specialize (IH (Some x)). destruct (fold_args _ (Some x) args) as [[v|]|k|]; [left; discriminate|destruct IH; discriminate|split; [left; discriminate|apply IH]|exact IH].
Qed.
Lemma length_pos : forall A (l : list A), (l <> [] \/ @None V <> None) -> (1 <=? List.length l)%nat = true.
Proof. intros A [|x l] [H|H]; try congruence; reflexivity. Qed.
Lemma calm_sum : calm (fun k => (1 <=? k)%nat) (c_sum n).
Proof.
  intros args w. unfold c_sum, fun_, lift. cbn [fn_call fst]. pose proof (fold_fine (n_cadd n) args None) as F.
  destruct (fold_args _ None args) as [[v|]|k|]; cbn [rbind or_no_args].
  - split; [discriminate|]. rewrite (length_pos _ args F). split; discriminate.
  - destruct F as [-> _]. split; [discriminate|]. split; reflexivity.
  - destruct F as [F ->]. split; [discriminate|]. rewrite (length_pos _ args F). split; discriminate.
  - destruct F.
Qed.
Lemma calm_prod : calm (fun k => (1 <=? k)%nat) (c_prod n).
Proof.
  intros args w. unfold c_prod, fun_, lift. cbn [fn_call fst]. pose proof (fold_fine (n_cmul n) args None) as F.
  destruct (fold_args _ None args) as [[v|]|k|]; cbn [rbind or_no_args].
  - split; [discriminate|]. rewrite (length_pos _ args F). split; discriminate.
  - destruct F as [-> _]. split; [discriminate|]. split; reflexivity.
  - destruct F as [F ->]. split; [discriminate|]. rewrite (length_pos _ args F). split; discriminate.
  - destruct F.
Qed.
(** [avg] panics only if the number of arguments is not a number of the type. *)
Lemma avg_cases : forall args w,
  (fst (fn_call (c_avg (W := W) n) args w) = Panic -> args <> [] /\ n_from_usize n (List.length args) = None) /\
  (fst (fn_call (c_avg (W := W) n) args w) = Err InvalidArgumentCount <-> args = []).
Proof.
  intros args w. unfold c_avg, fun_, lift. cbn [fn_call fst]. pose proof (fold_fine (n_cadd n) args None) as F.
  destruct (fold_args _ None args) as [[v|]|k|]; cbn [rbind].
  - assert (A : args <> []) by (destruct F; [assumption|congruence]). destruct (n_from_usize n (List.length args)) as [k|].
    + destruct (fine_over (n_cdiv n v k)). split; [contradiction|]. split; contradiction.
    + split; [auto|]. split; [discriminate|contradiction].
  - destruct F as [-> _]. split; [discriminate|]. split; reflexivity.
  - destruct F as [F ->]. split; [discriminate|]. split; [discriminate|]. intros ->. destruct F; congruence.
  - destruct F.
Qed.
Lemma best_is_some : forall better args (a : V), best better (Some a) args <> None.
Proof. intros better. induction args as [|x args IH]; intros a; cbn [best]; [discriminate|]. destruct (better x a); apply IH. Qed.
Lemma calm_best : forall name better, calm (fun k => (2 <=? k)%nat)
  (fun_ name (fun args => if (List.length args <=? 1)%nat then Err InvalidArgumentCount else or_no_args (best better None args))).
Proof.
  intros name better args w. unfold fun_, lift. cbn [fn_call fst]. destruct args as [|x [|y args]]; try (split; [discriminate|split; reflexivity]).
  cbn [List.length Nat.leb]. cbn [best]. pose proof (best_is_some better args (if better y x then y else x)) as H.
  replace (if better y x then Some y else Some x) with (Some (if better y x then y else x)) by (destruct (better y x); reflexivity).
  destruct (best better (Some (if better y x then y else x)) args); [|congruence]. cbn. split; [discriminate|]. split; discriminate.
Qed.
Lemma calm_max : calm (fun k => (2 <=? k)%nat) (op_max n).
Proof. apply calm_best. Qed.
Lemma calm_min : calm (fun k => (2 <=? k)%nat) (op_min n).
Proof. apply calm_best. Qed.
Lemma calm_log : calm (fun k => (1 <=? k) && (k <=? 2))%nat (op_log n L).
Proof.
  intros args w. unfold op_log, fun_, lift. cbn [fn_call fst].
  destruct args as [|x [|y [|z args]]]; try (split; [discriminate|split; reflexivity]); cbn [List.length Nat.leb andb].
  - destruct (fine_finite_opt (option_map (m1 L "log10") (n_to_f64 n x))). split; [assumption|]. split; [contradiction|discriminate].
  - destruct (n_to_f64 n x) as [v|]; [|split; [discriminate|split; discriminate]]. destruct (n_to_f64 n y) as [b|]; [|split; [discriminate|split; discriminate]].
    destruct (fine_finite (log_base L v b)). split; [assumption|]. split; [contradiction|discriminate].
Qed.
Lemma calm_atan : calm (fun k => (1 <=? k) && (k <=? 2))%nat (op_atan n L).
Proof.
  intros args w. unfold op_atan, fun_, lift. cbn [fn_call fst].
  destruct args as [|x [|y [|z args]]]; try (split; [discriminate|split; reflexivity]); cbn [List.length Nat.leb andb].
  - destruct (fine_finite_opt (option_map (fun f => m1 L "to_degrees" (m1 L "atan" f)) (n_to_f64 n x))). split; [assumption|]. split; [contradiction|discriminate].
  - destruct (n_to_f64 n x) as [v|]; [|split; [discriminate|split; discriminate]]. destruct (n_to_f64 n y) as [b|]; [|split; [discriminate|split; discriminate]].
    destruct (_ && _); [split; [discriminate|split; discriminate]|].
    destruct (fine_finite (m1 L "to_degrees" (atan2 L v b))). split; [assumption|]. split; [contradiction|discriminate].
Qed.
Lemma try_float_cases : forall x, (exists f, try_to_float n x = Ok f) \/ try_to_float n x = Err NAN \/ try_to_float n x = Err Overflow.
Proof. intros x. unfold try_to_float. destruct (n_to_f64 n x) as [f|]; [|auto]. destruct (_ || _); eauto. Qed.
Lemma calm_rand : calm (fun k => (k <=? 2))%nat (op_rand n random).
Proof.
  intros args w. unfold op_rand. cbn [fn_call].
  destruct args as [|x [|y [|z args]]]; cbn [List.length Nat.leb andb].
  - destruct (random w) as [r w']. cbn [fst]. destruct (fine_over (n_from_f64 n r)). split; [assumption|]. split; [contradiction|discriminate].
  - unfold bind, lift. destruct (try_float_cases x) as [[f ->]|[-> | ->]]; try (split; [discriminate|split; discriminate]).
    destruct (f_sign_negative f); [split; [discriminate|split; discriminate]|]. destruct (random w) as [r w']. cbn [fst].
    destruct (fine_over (n_from_f64 n (f_mul r f))). split; [assumption|]. split; [contradiction|discriminate].
  - unfold bind, lift. destruct (try_float_cases x) as [[f ->]|[-> | ->]]; try (split; [discriminate|split; discriminate]).
    destruct (try_float_cases y) as [[g ->]|[-> | ->]]; try (split; [discriminate|split; discriminate]).
    destruct (f_lt g f); [split; [discriminate|split; discriminate]|]. destruct (random w) as [r w']. cbn [fst].
    destruct (fine_over (n_from_f64 n (f_add f (f_mul (f_sub g f) r)))). split; [assumption|]. split; [contradiction|discriminate].
  - split; [discriminate|]. split; reflexivity.
Qed.

Lemma calm_accepts : forall ok f, calm ok f -> (forall k, ok k = accepts (fn_name f) k) -> calm (accepts (fn_name f)) f.
Proof. intros ok f H G args w. destruct (H args w) as [H1 H2]. split; [exact H1|]. rewrite <- G. exact H2. Qed.

Ltac one l := eapply calm_accepts; [apply l|intros k; reflexivity].
Lemma accepts_one : forall ok f, calm ok f -> ok = (fun k => (k =? 1)%nat) -> (forall k, accepts (fn_name f) k = (k =? 1)%nat) -> calm (accepts (fn_name f)) f.
Proof. intros ok f H -> G. eapply calm_accepts; [exact H|]. intros k. symmetry. apply G. Qed.
Definition oneb (s : string) : bool :=
  negb (existsb (fun x => str_eqb (lit s) (lit x)) ["sum"; "product"; "avg"; "max"; "min"; "log"; "atan"]%string || str_eqb (lit s) (lit "random")).
Lemma oneb_accepts : forall s, oneb s = true -> forall k, accepts (lit s) k = (k =? 1)%nat.
Proof.
  intros s H k. unfold oneb in H. apply negb_true_iff in H. apply orb_false_iff in H. destruct H as [H1 H2]. cbn [existsb] in H1.
  repeat (apply orb_false_iff in H1; let h := fresh "Q" in destruct H1 as [h H1]). unfold accepts. cbn [existsb].
  rewrite Q, Q0, Q1, Q2, Q3, Q4, Q5, H2. reflexivity.
Qed.
Lemma named_one : forall (f : func V W) s, calm (fun k => (k =? 1)%nat) f -> fn_name f = lit s -> oneb s = true -> calm (accepts (fn_name f)) f.
Proof. intros f s H Hn Ho. rewrite Hn. intros args w. destruct (H args w) as [H1 H2]. split; [exact H1|]. rewrite (oneb_accepts s Ho). exact H2. Qed.
Lemma common_calm : forall f, In f (common_list n L) -> calm (accepts (fn_name f)) f.
Proof.
  intros f H. unfold common_list in H. cbn [In] in H.
  repeat (destruct H as [<-|H];
    [match goal with
     | |- calm _ (trig _ _ ?m) => apply (named_one _ m (calm_trig m)); reflexivity
     | |- calm _ (trig_rec _ _ ?m ?s) => apply (named_one _ s (calm_trig_rec m s)); reflexivity
     | |- calm _ (arc_trig _ _ ?m) => apply (named_one _ m (calm_arc m)); reflexivity
     | |- calm _ (arc_trig_rec _ _ ?m ?s) => apply (named_one _ s (calm_arc_rec m s)); reflexivity
     | |- calm _ (forward _ ?s ?m) => apply (named_one _ s (calm_forward s m)); reflexivity
     | |- calm _ (forward_inv _ ?s ?m) => apply (named_one _ s (calm_forward_inv s m)); reflexivity
     | |- calm _ (op_atan _ _) => one calm_atan
     end|]).
  destruct H.
Qed.
Ltac fwd := match goal with |- calm (accepts (fn_name ?f)) _ => let g := eval unfold op_sqrt, op_ln, op_exp, op_floor, op_ceil, op_round, op_to_radians, op_to_degrees in f in
  match g with forward _ ?s ?m => apply (named_one _ s (calm_forward s m)); reflexivity end end.
Lemma checked_calm : forall f, In f (checked_funs n L random docs) -> fn_name f <> lit "avg" -> calm (accepts (fn_name f)) f.
Proof.
  intros f H Hn. unfold checked_funs in H. apply in_app_or in H. destruct H as [H|H]; [|apply common_calm; exact H]. cbn [In] in H.
  destruct H as [<-|H]; [one calm_sum|]. destruct H as [<-|H]; [one calm_prod|]. destruct H as [<-|H]; [exfalso; apply Hn; reflexivity|].
  destruct H as [<-|H]; [one calm_max|]. destruct H as [<-|H]; [one calm_min|]. destruct H as [<-|H]; [one calm_abs|].
  destruct H as [<-|H]; [fwd|]. destruct H as [<-|H]; [fwd|]. destruct H as [<-|H]; [one calm_log|].
  destruct H as [<-|H]; [fwd|]. destruct H as [<-|H]; [fwd|]. destruct H as [<-|H]; [fwd|].
  destruct H as [<-|H]; [unfold op_trunc; destruct docs; fwd|]. destruct H as [<-|H]; [fwd|].
  destruct H as [<-|H]; [unfold op_sign; destruct docs; fwd|]. destruct H as [<-|H]; [one calm_rand|].
  destruct H as [<-|H]; [fwd|]. destruct H as [<-|H]; [fwd|]. destruct H.
Qed.

Lemma checked_bins_calm : forall f x y w, In f (checked_bins (W := W) n L) -> fst (bf_call f x y w) <> Panic.
Proof.
  intros f x y w H. unfold checked_bins in H. cbn [In] in H.
  destruct H as [<-|[<-|[<-|[<-|[<-|[<-|[]]]]]]]; cbn; unfold lift; cbn [fst]; try apply fine_over.
  - destruct (n_is_zero n y); [discriminate|apply fine_over].
  - destruct (n_to_f64 n x); [|discriminate]. destruct (n_to_f64 n y); [apply fine_over|discriminate].
  - destruct (n_is_zero n y); [discriminate|apply fine_over].
Qed.
Lemma checked_uns_calm : forall f x w, In f (checked_uns (W := W) n L) -> uf_name f <> lit "!" -> fst (uf_call f x w) <> Panic.
Proof.
  intros f x w H Hn. unfold checked_uns in H. cbn [In] in H. destruct H as [<-|[<-|[<-|[]]]]; cbn; unfold lift; cbn [fst]; [discriminate|apply fine_over|].
  exfalso. apply Hn. reflexivity.
Qed.

(** ** Effects *)
Lemma pure_lift : forall A (r : res A), no_effect (W := W) (lift r).
Proof. intros A r. exists r. reflexivity. Qed.
Lemma checked_pure_fun : forall f args, In f (checked_funs n L random docs) -> fn_name f <> lit "random" -> no_effect (fn_call f args).
Proof.
  intros f args H Hn. unfold checked_funs, common_list in H. cbn [In app] in H.
  repeat (destruct H as [<-|H]; [first [apply pure_lift|exfalso; apply Hn; reflexivity]|]). destruct H.
Qed.
Lemma unchecked_pure_fun : forall f args, In f (unchecked_funs n L random) -> fn_name f <> lit "random" -> no_effect (fn_call f args).
Proof.
  intros f args H Hn. unfold unchecked_funs, common_list in H. cbn [In app] in H.
  repeat (destruct H as [<-|H]; [first [apply pure_lift|exfalso; apply Hn; reflexivity]|]). destruct H.
Qed.
Lemma checked_pure_bin : forall f x y, In f (checked_bins (W := W) n L) -> no_effect (bf_call f x y).
Proof. intros f x y H. unfold checked_bins in H. cbn [In] in H. repeat (destruct H as [<-|H]; [apply pure_lift|]). destruct H. Qed.
Lemma unchecked_pure_bin : forall f x y, In f (unchecked_bins (W := W) n L) -> no_effect (bf_call f x y).
Proof. intros f x y H. unfold unchecked_bins in H. cbn [In] in H. repeat (destruct H as [<-|H]; [apply pure_lift|]). destruct H. Qed.
Lemma checked_pure_un : forall f x, In f (checked_uns (W := W) n L) -> no_effect (uf_call f x).
Proof. intros f x H. unfold checked_uns in H. cbn [In] in H. repeat (destruct H as [<-|H]; [apply pure_lift|]). destruct H. Qed.
Lemma unchecked_pure_un : forall f x, In f (unchecked_uns (W := W) n L) -> no_effect (uf_call f x).
Proof. intros f x H. unfold unchecked_uns in H. cbn [In] in H. repeat (destruct H as [<-|H]; [apply pure_lift|]). destruct H. Qed.
End Any.

Section Pure.
Context {V W : Type}.
Variable c : ctx V W.
Variable dbg : bool.

(** The token names, if anything, a function or operator without effects. *)
Definition pure_token (t : token V) : Prop :=
  match t with
  | TFunction x => forall f args, get_function c x = Some f -> no_effect (fn_call f args)
  | TUnary x => forall f v, get_unary c x = Some f -> no_effect (uf_call f v)
  | TBinary x => forall f v v', get_binary c x = Some f -> no_effect (bf_call f v v')
  | _ => True
  end.
Lemma pure_bind : forall A B (m : M W A) (k : A -> M W B), no_effect m -> (forall a, no_effect (k a)) -> no_effect (bind m k).
Proof.
  intros A B m k [r Hr] Hk. destruct r as [a|e|].
  - destruct (Hk a) as [r' Hr']. exists r'. intros w. unfold bind. rewrite Hr. apply Hr'.
  - exists (Err e). intros w. unfold bind. rewrite Hr. reflexivity.
  - exists Panic. intros w. unfold bind. rewrite Hr. reflexivity.
Qed.
Lemma pure_rpn : forall rpn vals ac, Forall pure_token rpn -> no_effect (rpn_loop c dbg rpn vals ac).
Proof.
  induction rpn as [|t rpn IH]; intros vals ac H; [exists (Ok vals); reflexivity|]. inversion H as [|? ? Ht Hr]; subst.
  destruct t; cbn [rpn_loop]; try (exists (Err InvalidInput); reflexivity); try (apply IH; exact Hr).
  - destruct (get_variable c x); [apply IH; exact Hr|exists (Err InvalidInput); reflexivity].
  - destruct (get_constant c x); [apply IH; exact Hr|exists (Err InvalidInput); reflexivity].
  - destruct (get_function c f) as [fn|] eqn:E; [|exists (Err InvalidInput); reflexivity]. destruct ac as [k|]; [|exists (Err InvalidInput); reflexivity].
    destruct (pop_args k vals []) as [vals' args]. apply pure_bind; [apply Ht; exact E|]. intros a. apply IH. exact Hr.
  - destruct (get_binary c o) as [fn|] eqn:E; [|exists (Err InvalidInput); reflexivity]. destruct vals as [|x [|y vals]]; try (exists (Err InvalidExpression); reflexivity).
    apply pure_bind; [apply Ht; exact E|]. intros a. apply IH. exact Hr.
  - destruct (get_unary c u) as [fn|] eqn:E; [|exists (Err InvalidInput); reflexivity]. destruct vals as [|x vals]; try (exists (Err InvalidExpression); reflexivity).
    apply pure_bind; [apply Ht; exact E|]. intros a. apply IH. exact Hr.
  - destruct (dbg && is_some ac); [exists Panic; reflexivity|apply IH; exact Hr].
Qed.
Lemma pure_eval : forall toks, Forall pure_token toks -> (implicit_mul (cfg c) = true -> pure_token (TBinary times)) ->
  no_effect (eval_tokens c dbg toks).
Proof.
  intros toks Hs Hstar. unfold eval_tokens. destruct (infix_to_rpn c dbg toks) as [rpn|k|] eqn:E;
    [|exists (Err k); reflexivity|exists Panic; reflexivity].
  assert (P : Forall pure_token rpn).
  { destruct (infix_conserved c dbg toks rpn E) as (_ & Hops & _). apply Forall_forall. intros t Hin.
    destruct (operation_token t) eqn:Eo; [|destruct t; try discriminate Eo; exact I].
    assert (Hi : In t (operations toks ++ repeat (TBinary times) (if implicit_mul (cfg c) then juxtapositions toks else 0%nat))).
    { eapply Permutation.Permutation_in; [exact Hops|]. apply filter_In. auto. }
    apply in_app_or in Hi. destruct Hi as [Hi|Hi].
    - apply filter_In in Hi. destruct Hi as [Hi _]. rewrite Forall_forall in Hs. exact (Hs t Hi).
    - apply repeat_spec in Hi as Ht. subst t. destruct (implicit_mul (cfg c)) eqn:Em; [|destruct Hi]. exact (Hstar eq_refl). }
  destruct (pure_bind _ _ (rpn_loop c dbg rpn [] None) (fun values => match values with [v] => ret v | _ => fail InvalidExpression end)) as [r Hr].
  - apply pure_rpn. exact P.
  - intros [|v [|v' vs]]; [exists (Err InvalidExpression)|exists (Ok v)|exists (Err InvalidExpression)]; reflexivity.
  - exists r. intros w. unfold bind at 1, lift. apply Hr.
Qed.
End Pure.
