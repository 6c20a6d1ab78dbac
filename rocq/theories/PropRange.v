(** * C89: what an integer context computes are values of its type *)
From Coq Require Import List NArith ZArith Bool Arith Lia String.
From Verif Require Import ModelBase ModelContext ModelEvaluator ModelText ModelDefault ModelFloat ModelNum ModelOps ModelSplit ModelTokenizer ModelParse ModelStd
  SpecExpr SpecText SpecOps SpecRepl ProofText ProofDefault ProofBuild ProofCtx ProofOps ProofOps2 ProofParse SpecCalculator ProofCalculator ProofClosed.
Import ListNotations.
Local Open Scope Z_scope.

(** The context keeps to the values [P]: its variables and constants are such values and so is what its operators and functions
    return, given such values. *)
Definition keeps_to {V W} (c : ctx V W) (P : V -> Prop) : Prop :=
  (forall x v, get_variable c x = Some v -> P v) /\ (forall x v, get_constant c x = Some v -> P v) /\
  (forall u x w v w', P x -> apply_unary c u x w = (Ok v, w') -> P v) /\
  (forall o x y w v w', P x -> P y -> apply_binary c o x y w = (Ok v, w') -> P v) /\
  (forall f xs w v w', Forall P xs -> apply_function c f xs w = (Ok v, w') -> P v).

(** Whatever the text, its value is one of the values that the context keeps to, if the numbers in it are. *)
Theorem C89_kept : forall V W (c : ctx V W) P parse splitter dbg s w v w', keeps_to c P -> (forall x u, parse x = Some u -> P u) ->
  eval c parse splitter dbg s w = (Ok v, w') -> P v.
Proof.
  intros V W c P parse splitter dbg s w v w' (A & B & C & D & F) Hp X. refine (text_closed c dbg P A B _ _ _ parse splitter s w v w' Hp X).
  - intros u f x w0 v0 w1 G Px Y. apply (C u x w0 v0 w1 Px). unfold apply_unary. rewrite G. exact Y.
  - intros o f x y w0 v0 w1 G Px Py Y. apply (D o x y w0 v0 w1 Px Py). unfold apply_binary. rewrite G. exact Y.
  - intros g f xs w0 v0 w1 G Px Y. apply (F g xs w0 v0 w1 Px). unfold apply_function. rewrite G. exact Y.
Qed.
Print Assumptions C89_kept.

Section Keep.
Context {W : Type}.
Variables (t : ity) (dbg : bool) (L : libm) (rnd : W -> f64 * W) (docs : bool).
Hypothesis Hb : 2 <= bits t.
Notation n := (int_num t dbg).

Lemma ck_fits : forall z v, or_overflow (checked t z) = Ok v -> fits t v.
Proof. intros z v X. destruct (checked_exact t z) as [[F Y]|[_ Y]]; rewrite Y in X; [injection X as <-; exact F|discriminate]. Qed.
Lemma rem_fits : forall x y, y <> 0 -> fits t x -> fits t (Z.rem x y).
Proof.
  intros x y Hy Fx. destruct (rem_small x y Hy) as [R1 R2]. revert Fx. unfold fits. destruct (signed t); [|nia]. pose proof (Z.pow_pos_nonneg 2 (bits t - 1) ltac:(lia) ltac:(lia)). intros Fx.
  destruct (Z.lt_trichotomy x 0) as [S|[S|S]]; nia.
Qed.
Lemma raw_fits : forall z v, raw t dbg z = Ok v -> fits t v.
Proof.
  intros z v. unfold raw. destruct (in_range t z) eqn:R; [intros X; injection X as <-; apply fits_range; exact R|]. destruct dbg; [discriminate|]. intros X. injection X as <-. apply wrap_spec. lia.
Qed.
Lemma fact_fits : forall x w v w', fits t x -> uf_call (@op_factorial Z W n L) x w = (Ok v, w') -> fits t v.
Proof.
  clear rnd. intros x w v w' F. unfold op_factorial, unop, lift. cbn [uf_call]. destruct (Z_lt_le_dec x 0) as [C|C].
  - unfold factorial. rewrite n_lt_int. cbn [n_zero int_num]. replace (x <? 0) with true by (symmetry; apply Z.ltb_lt; exact C). discriminate.
  - destruct (factorial_int t dbg L Hb x F C) as (r & -> & R1 & R2). intros X. injection X as X _. destruct (fits_dec t (fact (Z.to_nat x))) as [G|G].
    + rewrite (R1 G) in X. injection X as <-. exact G.
    + rewrite (R2 G) in X. destruct dbg; [discriminate|]. injection X as <-. apply wrap_spec. lia.
Qed.

Definition kept_fun (f : func Z W) : Prop := forall xs w v w', Forall (fits t) xs -> fn_call f xs w = (Ok v, w') -> fits t v.
Lemma from_fits : forall x v, or_overflow (n_from_f64 n x) = Ok v -> fits t v.
Proof. intros x v. cbn [n_from_f64 int_num]. destruct (f_trunc_Z x) as [z|]; [apply ck_fits|discriminate]. Qed.
Lemma fin_fits : forall x v, finite_result n x = Ok v -> fits t v.
Proof. intros x v. unfold finite_result. destruct (_ || _); [discriminate|]. apply from_fits. Qed.
Lemma kept_forward : forall nm m, kept_fun (forward n nm m).
Proof.
  intros nm m xs w v w' _. unfold forward, fun_, lift. cbn [fn_call]. destruct xs as [|x [|y l]]; try discriminate. unfold try_to_float. cbn [n_to_f64 int_num]. destruct (_ || _); [discriminate|].
  cbn [rbind]. intros X. injection X as X _. exact (from_fits _ _ X).
Qed.
Lemma kept_one : forall nm (g : Z -> res Z), (forall z, exists x, g z = finite_result_opt n x) -> kept_fun (fun_ nm (one_arg g)).
Proof.
  intros nm g Hg xs w v w' _. unfold fun_, lift, one_arg. cbn [fn_call]. destruct xs as [|x [|y l]]; try discriminate. destruct (Hg x) as ([o|] & ->); [|discriminate]. intros X. injection X as X _. exact (fin_fits _ _ X).
Qed.
Lemma kept_log : kept_fun (op_log n L).
Proof. intros xs w v w' _. unfold op_log, fun_, lift. cbn [fn_call]. destruct xs as [|x [|y [|u l]]]; try discriminate; intros X; injection X as X _; exact (fin_fits _ _ X). Qed.
Lemma kept_atan : kept_fun (op_atan n L).
Proof.
  intros xs w v w' _. unfold op_atan, fun_, lift. cbn [fn_call]. destruct xs as [|x [|y [|u l]]]; try discriminate; [intros X; injection X as X _; exact (fin_fits _ _ X)|].
  cbn [n_to_f64 int_num]. destruct (_ && _); [discriminate|]. intros X; injection X as X _; exact (fin_fits _ _ X).
Qed.
Lemma kept_random : kept_fun (op_rand n rnd).
Proof.
  intros xs w v w' _. unfold op_rand. cbn [fn_call]. destruct xs as [|x [|y [|u l]]]; try discriminate; unfold bind, lift, fail.
  - destruct (rnd w) as [r w1]. intros X. injection X as X _. exact (from_fits _ _ X).
  - destruct (try_to_float n x) as [m| |]; try discriminate. destruct (f_sign_negative m); [discriminate|]. destruct (rnd w) as [r w1]. intros X. injection X as X _. exact (from_fits _ _ X).
  - destruct (try_to_float n x) as [m| |]; try discriminate. destruct (try_to_float n y) as [m'| |]; try discriminate. destruct (f_lt m' m); [discriminate|]. destruct (rnd w) as [r w1]. intros X. injection X as X _. exact (from_fits _ _ X).
Qed.
Lemma best_in : forall (better : Z -> Z -> bool) xs acc v, best better acc xs = Some v -> acc = Some v \/ In v xs.
Proof.
  intros better. induction xs as [|x xs IH]; intros acc v; [intros X; left; exact X|]. cbn [best]. intros X. apply IH in X. destruct X as [X|X]; [|right; right; exact X].
  destruct acc as [a|]; [|injection X as <-; right; left; reflexivity]. destruct (better x a); [injection X as <-; right; left; reflexivity|left; exact X].
Qed.
Lemma kept_best : forall nm (better : Z -> Z -> bool), kept_fun (fun_ nm (fun args => if (List.length args <=? 1)%nat then Err InvalidArgumentCount else or_no_args (best better None args))).
Proof.
  intros nm better xs w v w' F. unfold fun_, lift. cbn [fn_call]. destruct (_ <=? 1)%nat; [discriminate|]. destruct (best better None xs) as [r|] eqn:B; [|discriminate]. intros X. injection X as <- _.
  apply best_in in B. destruct B as [B|B]; [discriminate|]. rewrite Forall_forall in F. exact (F r B).
Qed.
Lemma fold_keeps : forall op xs acc r, (forall a b v, op a b = Ok v -> fits t v) -> (forall a, acc = Some a -> fits t a) -> Forall (fits t) xs -> fold_args op acc xs = Ok (Some r) -> fits t r.
Proof.
  intros op xs. induction xs as [|x xs IH]; intros acc r Hop Ha F; cbn [fold_args]; [intros X; injection X as ->; apply Ha; reflexivity|]. inversion F; subst.
  destruct acc as [a|]; [|apply IH; [exact Hop|intros a Y; injection Y as <-; assumption|assumption]].
  destruct (op a x) as [v| |] eqn:O; try discriminate. cbn [rbind]. apply IH; [exact Hop| |assumption]. intros b Y. injection Y as <-. exact (Hop _ _ _ O).
Qed.
Lemma kept_fold : forall nm op, (forall a b v, op a b = Ok v -> fits t v) -> kept_fun (fun_ nm (fun args => rbind (fold_args op None args) or_no_args)).
Proof.
  intros nm op Hop xs w v w' F. unfold fun_, lift. cbn [fn_call]. destruct (fold_args op None xs) as [[r|]| |] eqn:R; try discriminate. cbn [rbind or_no_args]. intros X. injection X as <- _.
  exact (fold_keeps op xs None r Hop ltac:(discriminate) F R).
Qed.
Lemma kept_list : forall P : func Z W -> Prop, forall l, (forall f, In f l -> P f) <-> Forall P l.
Proof. intros. symmetry. apply Forall_forall. Qed.
Lemma kept_common : forall f, In f (common_list n L) -> kept_fun f.
Proof.
  apply kept_list. unfold common_list.
  repeat (constructor; [first [apply kept_forward | apply kept_atan | (apply kept_one; intros z; eexists; reflexivity)]|]). constructor.
Qed.
Lemma kept_checked : forall f, In f (checked_funs n L rnd docs) -> kept_fun f.
Proof.
  intros f Hf. apply in_app_or in Hf. destruct Hf as [Hf|Hf]; [|apply kept_common; exact Hf]. revert f Hf. apply kept_list.
  constructor; [apply kept_fold; intros a b u X; exact (ck_fits _ _ X)|]. constructor; [apply kept_fold; intros a b u X; exact (ck_fits _ _ X)|]. constructor.
  { intros xs w v w' F. unfold c_avg, fun_, lift. cbn [fn_call]. destruct (fold_args _ None xs) as [[r|]| |]; try discriminate. cbn [rbind n_from_usize n_cdiv int_num].
    destruct (checked t (Z.of_nat _)) as [k|]; [|discriminate]. unfold checked_div. destruct (k =? 0); [discriminate|]. intros X. injection X as X _. exact (ck_fits _ _ X). }
  constructor; [apply kept_best|]. constructor; [apply kept_best|]. constructor.
  { intros xs w v w' F. unfold c_abs, fun_, lift. cbn [fn_call]. destruct xs as [|x [|y l]]; try discriminate. rewrite n_ge_int. inversion F; subst. destruct (_ <=? x); intros X; [injection X as <- _; assumption|injection X as X _; exact (ck_fits _ _ X)]. }
  repeat (constructor; [first [apply kept_forward | apply kept_log | apply kept_random]|]). constructor.
Qed.
Lemma kept_unchecked : forall f, In f (unchecked_funs n L rnd) -> kept_fun f.
Proof.
  intros f Hf. apply in_app_or in Hf. destruct Hf as [Hf|Hf]; [|apply kept_common; exact Hf]. revert f Hf. apply kept_list.
  constructor; [apply kept_fold; intros a b u X; exact (raw_fits _ _ X)|]. constructor.
  { intros xs w v w' F. unfold u_avg, fun_, lift. cbn [fn_call]. destruct (fold_args _ None xs) as [[r|]| |]; try discriminate. cbn [rbind n_from_usize n_div int_num].
    destruct (checked t (Z.of_nat _)) as [k|]; [|discriminate]. unfold raw_div. destruct (k =? 0); [discriminate|]. destruct (in_range t _) eqn:R; [|discriminate]. intros X. injection X as <- _. apply fits_range. exact R. }
  constructor; [apply kept_fold; intros a b u X; exact (raw_fits _ _ X)|]. constructor; [apply kept_best|]. constructor; [apply kept_best|].
  repeat (constructor; [first [apply kept_forward | apply kept_log | apply kept_random]|]). constructor.
Qed.
Lemma pow_keeps : forall x y w v w', bf_call (@op_pow Z W n L) x y w = (Ok v, w') -> fits t v.
Proof. intros x y w v w'. unfold op_pow, binop, lift. cbn [bf_call n_to_f64 int_num]. intros X. injection X as X _. exact (from_fits _ _ X). Qed.
End Keep.

(** The values of an integer type. *)
Theorem C89_integers : forall W t dbg L (rnd : W -> f64 * W) docs E cf d d', 2 <= bits t ->
  checked_context (int_num t dbg) L rnd docs E dbg cf = Ok d \/ unchecked_context (int_num t dbg) L rnd E dbg cf = Ok d ->
  same_but_variables d d' -> (forall x z, get_variable (to_ctx E d') x = Some z -> fits t z) ->
  keeps_to (to_ctx E d') (fits t) /\
  forall parse splitter s w v w', (forall x u, parse x = Some u -> fits t u) -> eval (to_ctx E d') parse splitter dbg s w = (Ok v, w') -> fits t v.
Proof.
  intros W t dbg L rnd docs E cf d d' Hb H Hs Hv.
  assert (K : keeps_to (to_ctx E d') (fits t)).
  { destruct Hs as (A1 & A2 & A3 & A4 & A5).
    assert (I : exists p e bins uns funs, n_from_f64 (int_num t dbg) f_PI = Some p /\ n_from_f64 (int_num t dbg) f_E = Some e /\ d = ctx_of p e bins uns funs cf /\
      (forall f, In f funs -> kept_fun t f) /\ (forall f x w v w', In f uns -> fits t x -> uf_call f x w = (Ok v, w') -> fits t v) /\
      (forall f x y w v w', In f bins -> fits t x -> fits t y -> bf_call f x y w = (Ok v, w') -> fits t v)).
    { destruct H as [H|H].
      - apply checked_inv in H. destruct H as (p & e & P1 & P2 & ->). exists p, e, (checked_bins (int_num t dbg) L), (checked_uns (int_num t dbg) L), (checked_funs (int_num t dbg) L rnd docs).
        split; [exact P1|]. split; [exact P2|]. split; [reflexivity|]. split; [exact (kept_checked t dbg L rnd docs)|]. split.
        + intros f x w v w' Hf Fx. cbn [checked_uns In] in Hf. destruct Hf as [<-|[<-|[<-|[]]]].
          * intros X. injection X as <- _. exact Fx.
          * intros X. injection X as X _. exact (ck_fits _ _ _ X).
          * eapply fact_fits; eassumption.
        + intros f x y w v w' Hf Fx Fy. cbn [checked_bins In] in Hf. destruct Hf as [<-|[<-|[<-|[<-|[<-|[<-|[]]]]]]].
          * intros X. injection X as X _. exact (ck_fits _ _ _ X).
          * intros X. injection X as X _. exact (ck_fits _ _ _ X).
          * intros X. injection X as X _. exact (ck_fits _ _ _ X).
          * unfold c_div, binop, lift. cbn [bf_call n_is_zero n_cdiv int_num]. destruct (y =? 0) eqn:Y; [discriminate|]. unfold checked_div. rewrite Y. intros X. injection X as X _. exact (ck_fits _ _ _ X).
          * exact (pow_keeps t dbg L x y w v w').
          * unfold c_mod, binop, lift. cbn [bf_call n_is_zero n_crem int_num]. destruct (y =? 0) eqn:Y; [discriminate|]. unfold checked_rem. rewrite Y. destruct (in_range t _); [|discriminate]. intros X. injection X as <- _. apply rem_fits; [exact Hb|apply Z.eqb_neq; exact Y|exact Fx].
      - apply unchecked_inv in H. destruct H as (p & e & P1 & P2 & ->). exists p, e, (unchecked_bins (int_num t dbg) L), (unchecked_uns (int_num t dbg) L), (unchecked_funs (int_num t dbg) L rnd).
        split; [exact P1|]. split; [exact P2|]. split; [reflexivity|]. split; [exact (kept_unchecked t dbg L rnd Hb)|]. split.
        + intros f x w v w' Hf Fx. cbn [unchecked_uns In] in Hf. destruct Hf as [<-|[<-|[<-|[]]]].
          * intros X. injection X as <- _. exact Fx.
          * intros X. injection X as X _. eapply raw_fits; eassumption.
          * eapply fact_fits; eassumption.
        + intros f x y w v w' Hf Fx Fy. cbn [unchecked_bins In] in Hf. destruct Hf as [<-|[<-|[<-|[<-|[<-|[<-|[]]]]]]].
          * intros X. injection X as X _. eapply raw_fits; eassumption.
          * intros X. injection X as X _. eapply raw_fits; eassumption.
          * intros X. injection X as X _. eapply raw_fits; eassumption.
          * unfold u_div, binop, lift. cbn [bf_call n_is_zero n_div int_num]. destruct (y =? 0) eqn:Y; [discriminate|]. unfold raw_div. rewrite Y. destruct (in_range t _) eqn:R; [|discriminate]. intros X. injection X as <- _. apply fits_range. exact R.
          * exact (pow_keeps t dbg L x y w v w').
          * unfold u_mod, binop, lift. cbn [bf_call n_is_zero n_rem int_num]. destruct (y =? 0) eqn:Y; [discriminate|]. unfold raw_rem. rewrite Y. destruct (in_range t _); [|discriminate]. intros X. injection X as <- _. apply rem_fits; [exact Hb|apply Z.eqb_neq; exact Y|exact Fx]. }
    destruct I as (p & e & bins & uns & funs & P1 & P2 & D & If & Iu & Ib). cbn [n_from_f64 int_num] in P1, P2.
    replace (f_trunc_Z f_PI) with (Some 3) in P1 by (vm_compute; reflexivity). replace (f_trunc_Z f_E) with (Some 2) in P2 by (vm_compute; reflexivity).
    split; [exact Hv|]. split; [|split; [|split]].
    - intros x v. cbn [to_ctx get_constant]. rewrite A1, D. cbn [ctx_of d_consts]. intros X. apply mget_some in X. destruct X as (k & [X|[X|[]]] & _); injection X as <- <-.
      + unfold checked in P1. destruct (in_range t 3) eqn:R; [|discriminate]. injection P1 as <-. apply fits_range. exact R.
      + unfold checked in P2. destruct (in_range t 2) eqn:R; [|discriminate]. injection P2 as <-. apply fits_range. exact R.
    - intros u x w v w' Fx. unfold apply_unary. destruct (get_unary (to_ctx E d') u) as [f|] eqn:G; [|discriminate]. apply Iu; [|exact Fx]. cbn [to_ctx get_unary] in G. rewrite A3, D in G. exact (proj1 (found_un E p e bins uns funs cf f u G)).
    - intros o x y w v w' Fx Fy. unfold apply_binary. destruct (get_binary (to_ctx E d') o) as [f|] eqn:G; [|discriminate]. apply Ib; [|exact Fx|exact Fy]. cbn [to_ctx get_binary] in G. rewrite A4, D in G. exact (proj1 (found_bin E p e bins uns funs cf f o G)).
    - intros g xs w v w' F. unfold apply_function. destruct (get_function (to_ctx E d') g) as [f|] eqn:G; [|discriminate]. apply If; [|exact F]. cbn [to_ctx get_function] in G. rewrite A2, D in G. exact (proj1 (found_fun E p e bins uns funs cf f g G)). }
  split; [exact K|]. intros parse splitter s w v w' Hp X. exact (C89_kept Z W _ _ parse splitter dbg s w v w' K Hp X).
Qed.
Print Assumptions C89_integers.

(** The hypotheses are met, and the bounds are reached: the largest [i64] plus 0 is computed, a variable at the lower bound too. *)
Example C89_case : (exists d, checked_context (int_num i64 true) no_libm no_random true std_env true plain_config = Ok d) /\
  (exists d, unchecked_context (int_num i64 false) no_libm no_random std_env false plain_config = Ok d) /\
  (forall x u, parse_int i64 x = Some u -> fits i64 u) /\
  fst (eval (std_ctx plain_config) (parse_int i64) (split_into_tokens default_splitter) true (lit "9223372036854775806 + max(0, 1)") tt) = Ok 9223372036854775807 /\ fits i64 9223372036854775807 /\ ~ fits i64 9223372036854775808.
Proof.
  split; [eexists; exact (checked_is (int_num i64 true) no_libm no_random true std_env true 3 2 eq_refl eq_refl plain_config)|].
  split; [eexists; exact (unchecked_is (int_num i64 false) no_libm no_random std_env false 3 2 eq_refl eq_refl plain_config)|].
  split; [intros x u X; apply parse_int_spec in X; [apply X|reflexivity]|]. split; [vm_compute; reflexivity|]. unfold fits. cbn. lia.
Qed.
