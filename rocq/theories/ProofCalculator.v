(** * The calculator of SpecCalculator is what the default checked integer contexts compute *)
From Coq Require Import List NArith ZArith Bool Arith Lia String.
From Verif Require Import ModelBase ModelContext ModelEvaluator ModelText ModelDefault ModelFloat ModelNum ModelOps ModelSplit ModelTokenizer ModelParse
  SpecExpr SpecText SpecOps SpecLex SpecParse SpecTokenizer SpecRepl ProofText ProofDefault ProofBuild ProofCtx ProofOps ProofOps2 ProofSplit ProofLex ProofTok ProofExprText ProofParse ProofIntText SpecCalculator.
Import ListNotations.
Local Open Scope Z_scope.

Lemma small_is : forall c, small c = to_ascii_lowercase c.
Proof. reflexivity. Qed.
Lemma named_alike : forall x n, named x n = true -> map small (lit n) = lit n -> ascii_alike x (lit n).
Proof. intros x n H L. apply fold_alike. apply str_eqb_eq in H. rewrite <- L in H. exact H. Qed.
Lemma alike_named : forall x n, ascii_alike x (lit n) -> map small (lit n) = lit n -> named x n = true.
Proof. intros x n H L. apply fold_alike in H. unfold named. change (map small x) with (map to_ascii_lowercase x). rewrite H. change (map to_ascii_lowercase (lit n)) with (map small (lit n)). rewrite L. apply str_eqb_refl. Qed.
Lemma named_other : forall x n m, named x n = true -> str_eqb (lit n) (lit m) = false -> named x m = false.
Proof. intros x n m H K. unfold named in *. apply str_eqb_eq in H. rewrite H. exact K. Qed.

Lemma rem_small : forall x y, y <> 0 -> Z.abs (Z.rem x y) <= Z.abs x /\ 0 <= Z.rem x y * x.
Proof.
  intros x y Hy. rewrite (Z.rem_mod x y Hy). pose proof (Z.mod_le (Z.abs x) (Z.abs y) ltac:(lia) ltac:(lia)). pose proof (Z.mod_pos_bound (Z.abs x) (Z.abs y) ltac:(lia)).
  destruct (Z.sgn_spec x) as [[? ->]|[[? ->]|[? ->]]]; nia.
Qed.

Section Values.
Context {W : Type}.
Variables (t : ity) (dbg : bool) (L : libm) (rnd : W -> f64 * W) (docs : bool) (E : env) (cf : config) (d d' : dctx Z W).
Hypothesis H : checked_context (int_num t dbg) L rnd docs E dbg cf = Ok d.
Hypothesis Hs : same_but_variables d d'.
Hypothesis Hb : 2 <= bits t.
Notation n := (int_num t dbg).
Notation c := (to_ctx E d).
Notation c' := (to_ctx E d').
Notation vars := (get_variable c').
Hypothesis Hv : forall x z, vars x = Some z -> fits t z.
Variable power : Z -> Z -> res Z.
Variable rest : str -> list Z -> res Z.
Variable others : str -> Prop.
Hypothesis Hp : forall x y w, apply_binary c (lit "^") x y w = (power x y, w).
Hypothesis Ho : forall f, others f -> get_constant c f = None /\ get_function c f <> None /\ forall zs w, apply_function c f zs w = (rest f zs, w).
Notation calc := (SpecCalculator.calc t dbg vars power rest).
Notation put := (SpecCalculator.put t).

Lemma within_fits : forall z, within t z = in_range t z.
Proof using Hb.
  clear - Hb. intros z. unfold within, least, size, in_range, imin, imax. destruct (signed t); apply eq_true_iff_eq; rewrite !andb_true_iff, !Z.leb_le, !Z.ltb_lt; [|lia].
  replace (2 ^ bits t) with (2 * 2 ^ (bits t - 1)) by (rewrite <- Z.pow_succ_r by lia; f_equal; lia). lia.
Qed.
Lemma put_is : forall z, put z = or_overflow (checked t z).
Proof using Hb. intros z. unfold SpecCalculator.put, checked. rewrite within_fits. destruct (in_range t z); reflexivity. Qed.
Lemma put_fits : forall z y, put z = Ok y -> y = z /\ fits t y.
Proof. intros z y. unfold SpecCalculator.put. destruct (within t z) eqn:K; [|discriminate]. intros X. injection X as <-. split; [reflexivity|]. apply fits_range. rewrite <- within_fits. exact K. Qed.
Lemma wrapped_is : forall z, wrapped_value t z = wrap t z.
Proof. intros z. unfold wrapped_value, wrap, least, size, imin. ring. Qed.

Lemma same_lookups : get_constant c' = get_constant c /\ get_function c' = get_function c /\ get_unary c' = get_unary c /\ get_binary c' = get_binary c /\ cfg c' = cfg c.
Proof. destruct Hs as (A1 & A2 & A3 & A4 & A5). cbn [to_ctx get_constant get_function get_unary get_binary cfg]. rewrite A1, A2, A3, A4, A5. auto. Qed.

(** ** Operators *)
Lemma bin_alike : forall o name x y w, named o name = true -> map small (lit name) = lit name -> apply_binary c' o x y w = apply_binary c (lit name) x y w.
Proof.
  intros o name x y w K Lw. unfold apply_binary. destruct same_lookups as (_ & _ & _ & -> & _).
  destruct (lookup_alike E d o (lit name) (named_alike _ _ K Lw)) as (_ & _ & _ & ->). reflexivity.
Qed.
Lemma un_alike : forall o name x w, named o name = true -> map small (lit name) = lit name -> apply_unary c' o x w = apply_unary c (lit name) x w.
Proof.
  intros o name x w K Lw. unfold apply_unary. destruct same_lookups as (_ & _ & -> & _).
  destruct (lookup_alike E d o (lit name) (named_alike _ _ K Lw)) as (_ & _ & -> & _). reflexivity.
Qed.
Lemma fun_alike : forall o name zs w, named o name = true -> map small (lit name) = lit name -> apply_function c' o zs w = apply_function c (lit name) zs w.
Proof.
  intros o name zs w K Lw. unfold apply_function. destruct same_lookups as (_ & -> & _).
  destruct (lookup_alike E d o (lit name) (named_alike _ _ K Lw)) as (_ & -> & _). reflexivity.
Qed.
Notation cp := (c_plus_is t dbg L rnd docs E cf d H).

Ltac not_yet K := repeat (match goal with |- context [named ?o ?m] => rewrite (named_other o _ m K) by reflexivity end).
Ltac now_ K := match goal with |- context [named ?o ?m] => rewrite K end.

Lemma operation_is : forall o x y w, one_of ["+"; "-"; "*"; "/"; "mod"; "^"]%string o ->
  apply_binary c' o x y w = (operation t power o x y, w).
Proof.
  intros o x y w (nm & Hn & K). unfold operation. cbn [In] in Hn.
  destruct Hn as [<-|[<-|[<-|[<-|[<-|[<-|[]]]]]]]; rewrite (bin_alike o _ x y w K eq_refl); rewrite ?K; not_yet K; rewrite ?put_is.
  - apply (c_plus_is t dbg L rnd docs E cf d H).
  - apply (c_minus_is t dbg L rnd docs E cf d H).
  - apply (c_times_is t dbg L rnd docs E cf d H).
  - apply (c_div_is t dbg L rnd docs E cf d H).
  - rewrite (c_mod_is t dbg L rnd docs E cf d H). destruct (y =? 0); [reflexivity|]. unfold checked. destruct (in_range t (Z.quot x y)); reflexivity.
  - apply Hp.
Qed.
Lemma operation_fits : forall o x y z, W -> fits t x -> fits t y -> operation t power o x y = Ok z -> fits t z.
Proof.
  intros o x y z w Fx Fy. unfold operation. repeat (match goal with |- context [named ?o ?m] => destruct (named o m) end); try (intros X; apply put_fits in X; apply X).
  - destruct (y =? 0); [discriminate|]. intros X. apply put_fits in X. apply X.
  - destruct (Z.eqb_spec y 0) as [|Hy]; [discriminate|]. unfold then_, SpecCalculator.put. destruct (within t (Z.quot x y)); [|discriminate]. intros X. injection X as <-.
    destruct (rem_small x y Hy) as [R1 R2]. revert Fx. unfold fits. destruct (signed t); [|nia]. pose proof (Z.pow_pos_nonneg 2 (bits t - 1) ltac:(lia) ltac:(lia)). intros Fx.
    destruct (Z.lt_trichotomy x 0) as [S|[S|S]]; nia.
  - intros X. pose proof (Hp x y w) as P. rewrite (c_pow_is t dbg L rnd docs E cf d H) in P. injection P as P. rewrite <- P in X.
    destruct (f_trunc_Z _) as [q|]; [|discriminate]. rewrite <- put_is in X. apply put_fits in X. apply X.
Qed.

(** ** Factorials *)
Lemma factorial_is : forall u z w, fits t z -> named u "!" = true -> apply_unary c' u z w = (factorial_of t dbg z, w).
Proof.
  intros u z w F K. rewrite (un_alike u "!" z w K eq_refl), (c_fact_is t dbg L rnd docs E cf d H). unfold op_factorial, unop, lift. cbn [uf_call].
  unfold factorial_of. destruct (Z.ltb_spec z 0) as [C|C].
  - unfold factorial. rewrite n_lt_int. cbn [n_zero int_num]. replace (z <? 0) with true by (symmetry; apply Z.ltb_lt; exact C). reflexivity.
  - destruct (factorial_int t dbg L Hb z F C) as (r & -> & R1 & R2). rewrite within_fits. destruct (in_range t (fact (Z.to_nat z))) eqn:R.
    + apply fits_range in R. rewrite (R1 R). reflexivity.
    + apply not_fits_range in R. rewrite (R2 R). destruct dbg; [reflexivity|]. rewrite wrapped_is. reflexivity.
Qed.
Lemma factorial_fits : forall z y, factorial_of t dbg z = Ok y -> fits t y.
Proof.
  intros z y. unfold factorial_of. destruct (z <? 0); [discriminate|]. rewrite within_fits. destruct (in_range t _) eqn:R.
  - intros X. injection X as <-. apply fits_range. exact R.
  - destruct dbg; [discriminate|]. intros X. injection X as <-. rewrite wrapped_is. apply wrap_spec. lia.
Qed.

(** ** Functions *)
Lemma running_is : forall op zs z, fold_args (fun a x => or_overflow (checked t (op a x))) (Some z) zs =
  match running t op z zs with Ok v => Ok (Some v) | Err k => Err k | Panic => Panic end.
Proof.
  intros op zs. induction zs as [|x zs IH]; intros z; [reflexivity|]. cbn [fold_args running]. rewrite put_is.
  destruct (checked t (op z x)) as [v|]; [apply IH|reflexivity].
Qed.
Lemma running_fits : forall op zs z v, fits t z -> running t op z zs = Ok v -> fits t v.
Proof.
  intros op zs. induction zs as [|x zs IH]; intros z v F; cbn [running].
  - intros X. injection X as <-. exact F.
  - destruct (put (op z x)) as [s| |] eqn:P; try discriminate. apply put_fits in P. cbn [then_]. apply IH. apply P.
Qed.
Lemma best_max : forall zs z, best (n_gt n) (Some z) zs = Some (fold_left Z.max zs z).
Proof. induction zs as [|x zs IH]; intros z; [reflexivity|]. cbn [best fold_left]. rewrite n_gt_int. destruct (Z.ltb_spec z x) as [C|C]; rewrite IH; f_equal; f_equal; lia. Qed.
Lemma best_min : forall zs z, best (n_lt n) (Some z) zs = Some (fold_left Z.min zs z).
Proof. induction zs as [|x zs IH]; intros z; [reflexivity|]. cbn [best fold_left]. rewrite n_lt_int. destruct (Z.ltb_spec x z) as [C|C]; rewrite IH; f_equal; f_equal; lia. Qed.

Definition six : list string := ["sum"; "product"; "avg"; "max"; "min"; "abs"]%string.
Lemma call_six : forall f zs w, one_of six f -> Forall (fits t) zs -> apply_function c' f zs w = (call t rest f zs, w).
Proof.
  intros f zs w (nm & Hn & K) Fz. unfold call. cbn [In six] in Hn.
  destruct Hn as [<-|[<-|[<-|[<-|[<-|[<-|[]]]]]]]; rewrite (fun_alike f _ zs w K eq_refl); rewrite ?K; not_yet K.
  - rewrite (c_sum_is t dbg L rnd docs E cf d H). unfold c_sum, fun_, lift. cbn [fn_call n_cadd int_num]. destruct zs as [|z zs]; [reflexivity|]. cbn [fold_args]. rewrite (running_is Z.add).
    destruct (running t Z.add z zs); reflexivity.
  - rewrite (c_prod_is t dbg L rnd docs E cf d H). unfold c_prod, fun_, lift. cbn [fn_call n_cmul int_num]. destruct zs as [|z zs]; [reflexivity|]. cbn [fold_args]. rewrite (running_is Z.mul).
    destruct (running t Z.mul z zs); reflexivity.
  - rewrite (c_avg_is t dbg L rnd docs E cf d H). unfold c_avg, fun_, lift. cbn [fn_call n_cadd int_num]. destruct zs as [|z zs]; [reflexivity|]. cbn [fold_args]. rewrite (running_is Z.add).
    destruct (running t Z.add z zs) as [s| |]; [|reflexivity..]. cbn [rbind then_ n_from_usize n_cdiv int_num]. cbv zeta. rewrite put_is, within_fits.
    unfold checked at 1. destruct (in_range t _) eqn:R; [|reflexivity]. unfold checked_div. replace (Z.of_nat (List.length (z :: zs)) =? 0) with false by (symmetry; apply Z.eqb_neq; cbn [List.length]; lia). reflexivity.
  - rewrite (c_max_is t dbg L rnd docs E cf d H). unfold op_max, fun_, lift. cbn [fn_call]. destruct zs as [|x [|y zs]]; [reflexivity..|]. cbn [List.length Nat.leb].
    change (best (n_gt n) None (x :: y :: zs)) with (best (n_gt n) (Some x) (y :: zs)). rewrite best_max. reflexivity.
  - rewrite (c_min_is t dbg L rnd docs E cf d H). unfold op_min, fun_, lift. cbn [fn_call]. destruct zs as [|x [|y zs]]; [reflexivity..|]. cbn [List.length Nat.leb].
    change (best (n_lt n) None (x :: y :: zs)) with (best (n_lt n) (Some x) (y :: zs)). rewrite best_min. reflexivity.
  - rewrite (c_abs_is t dbg L rnd docs E cf d H). unfold c_abs, fun_, lift. cbn [fn_call]. destruct zs as [|x [|y zs]]; [reflexivity| |reflexivity]. rewrite n_ge_int. cbn [n_zero n_cneg int_num]. rewrite put_is.
    destruct (Z.leb_spec 0 x) as [C|C]; [|rewrite (Z.abs_neq x) by lia; reflexivity]. rewrite (Z.abs_eq x) by lia.
    apply Forall_inv in Fz. apply fits_range in Fz. unfold checked. rewrite Fz. reflexivity.
Qed.
Lemma six_dec : forall f, one_of six f \/ forall nm, In nm six -> named f nm = false.
Proof.
  intros f. unfold one_of. generalize six. intros l. induction l as [|a l [IH|IH]]; [right; intros nm []|left; destruct IH as (x & A & B); exists x; split; [right; exact A|exact B]|].
  destruct (named f a) eqn:K; [left; exists a; split; [left; reflexivity|exact K]|right; intros nm [<-|X]; auto].
Qed.
Lemma call_is : forall f zs w, one_of six f \/ others f -> Forall (fits t) zs -> apply_function c' f zs w = (call t rest f zs, w).
Proof.
  intros f zs w HO F. destruct (six_dec f) as [D|D]; [apply call_six; assumption|]. destruct HO as [O|O]; [apply call_six; assumption|].
  unfold apply_function. destruct same_lookups as (_ & -> & _). unfold call. rewrite !D by (cbn; tauto). apply (Ho f O).
Qed.
Lemma call_six_fits : forall f zs v, one_of six f -> Forall (fits t) zs -> call t rest f zs = Ok v -> fits t v.
Proof.
  intros f zs v (nm & Hn & K) F. unfold call. cbn [In six] in Hn.
  assert (FM : forall (g : Z -> Z -> Z) l z, (forall a b, g a b = a \/ g a b = b) -> fits t z -> Forall (fits t) l -> fits t (fold_left g l z)).
  { intros g l. induction l as [|x l IH]; intros z G Fz Fl; [exact Fz|]. cbn [fold_left]. inversion Fl; subst. apply IH; [exact G| |assumption]. destruct (G z x) as [-> | ->]; assumption. }
  destruct Hn as [<-|[<-|[<-|[<-|[<-|[<-|[]]]]]]]; rewrite ?K; not_yet K; destruct zs as [|z zs]; try discriminate; inversion F; subst.
  - apply running_fits. assumption.
  - apply running_fits. assumption.
  - destruct (running t Z.add z zs) as [s| |]; try discriminate. cbn [then_]. cbv zeta. destruct (within t _); [|discriminate]. intros X. apply put_fits in X. apply X.
  - destruct zs as [|y zs]; [discriminate|]. intros X. injection X as <-. apply (FM Z.max (y :: zs) z); [intros; lia|assumption|assumption].
  - destruct zs as [|y zs]; [discriminate|]. intros X. injection X as <-. apply (FM Z.min (y :: zs) z); [intros; lia|assumption|assumption].
  - destruct zs as [|y zs]; [|discriminate]. intros X. apply put_fits in X. apply X.
Qed.

(** Every function's results are values of the type. *)
Lemma from_f64_fits : forall x v, or_overflow (n_from_f64 n x) = Ok v -> fits t v.
Proof. intros x v. cbn [n_from_f64 int_num]. destruct (f_trunc_Z x) as [z|]; [|discriminate]. rewrite <- put_is. intros X. apply put_fits in X. apply X. Qed.
Lemma finite_fits : forall x v, finite_result n x = Ok v -> fits t v.
Proof. intros x v. unfold finite_result. destruct (_ || _); [discriminate|]. apply from_f64_fits. Qed.
Lemma finite_opt_fits : forall x v, finite_result_opt n x = Ok v -> fits t v.
Proof. intros [x|] v; [apply finite_fits|discriminate]. Qed.
Lemma function_fits : forall f zs w v w', Forall (fits t) zs -> apply_function c f zs w = (Ok v, w') -> fits t v.
Proof.
  intros f zs w v w' F. unfold apply_function. destruct (get_function c f) as [fn|] eqn:G; [|discriminate].
  pose proof H as H0. apply checked_inv in H0. destruct H0 as (p & e & _ & _ & D). pose proof G as G'. rewrite D in G'. apply found_fun in G'. destruct G' as [Hin _]. clear D p e.
  assert (FW : forall nm m, fn_call (@forward Z W n nm m) zs w = (Ok v, w') -> fits t v).
  { intros nm m. unfold forward, fun_, lift. cbn [fn_call]. destruct zs as [|x [|y l]]; try discriminate. unfold try_to_float. cbn [n_to_f64 int_num]. destruct (_ || _); [discriminate|]. cbn [rbind].
    intros X. injection X as X _. exact (from_f64_fits _ _ X). }
  assert (OA : forall (g : Z -> res Z) nm, (forall z, exists o, g z = finite_result_opt n o) -> fn_call (fun_ (W := W) nm (one_arg g)) zs w = (Ok v, w') -> fits t v).
  { intros g nm Hg. unfold fun_, lift, one_arg. cbn [fn_call]. destruct zs as [|x [|y l]]; try discriminate. destruct (Hg x) as (o & ->). intros X. injection X as X _. exact (finite_opt_fits _ _ X). }
  assert (SX : forall nm i fn0, nth_error (checked_funs n L rnd docs) i = Some fn0 -> ascii_alike (lit nm) (fn_name fn0) -> one_of six (lit nm) -> fn_call fn0 zs w = (Ok v, w') -> fits t v).
  { intros nm i fn0 Hi Ha Hsix X. pose proof (call_six (lit nm) zs w Hsix F) as Q. unfold apply_function in Q. destruct same_lookups as (_ & Q1 & _). rewrite Q1, (checked_fun n L rnd docs E dbg cf d i fn0 (lit nm) H Hi Ha) in Q.
    rewrite X in Q. injection Q as Q _. symmetry in Q. exact (call_six_fits _ _ _ Hsix F Q). }
  clear G. unfold checked_funs, common_list in Hin. cbn [app In] in Hin.
  repeat (destruct Hin as [<-|Hin]; [first [apply FW | (apply OA; intros z; eexists; reflexivity) | idtac]|]); [..|destruct Hin].
  - apply (SX "sum"%string 0%nat); [reflexivity|apply alike_refl|exists "sum"%string; cbn; auto].
  - apply (SX "product"%string 1%nat); [reflexivity|apply alike_refl|exists "product"%string; cbn; auto].
  - apply (SX "avg"%string 2%nat); [reflexivity|apply alike_refl|exists "avg"%string; cbn; auto].
  - apply (SX "max"%string 3%nat); [reflexivity|apply alike_refl|exists "max"%string; cbn; tauto].
  - apply (SX "min"%string 4%nat); [reflexivity|apply alike_refl|exists "min"%string; cbn; tauto].
  - apply (SX "abs"%string 5%nat); [reflexivity|apply alike_refl|exists "abs"%string; cbn; tauto].
  - unfold op_log, fun_, lift. cbn [fn_call]. destruct zs as [|x [|y [|u l]]]; try discriminate; intros X; injection X as X _; exact (finite_fits _ _ X).
  - unfold op_rand. cbn [fn_call]. destruct zs as [|x [|y [|u l]]]; try discriminate; unfold bind, lift, fail.
    + destruct (rnd w) as [r w1]. intros X. injection X as X _. exact (from_f64_fits _ _ X).
    + destruct (try_to_float n x) as [m| |]; try discriminate. destruct (f_sign_negative m); [discriminate|]. destruct (rnd w) as [r w1]. intros X. injection X as X _. exact (from_f64_fits _ _ X).
    + destruct (try_to_float n x) as [m| |]; try discriminate. destruct (try_to_float n y) as [m'| |]; try discriminate. destruct (f_lt m' m); [discriminate|]. destruct (rnd w) as [r w1]. intros X. injection X as X _. exact (from_f64_fits _ _ X).
  - unfold op_atan, fun_, lift. cbn [fn_call]. destruct zs as [|x [|y [|u l]]]; try discriminate; [intros X; injection X as X _; exact (finite_fits _ _ X)|].
    cbn [n_to_f64 int_num]. destruct (_ && _); [discriminate|]. intros X; injection X as X _; exact (finite_fits _ _ X).
Qed.
Lemma call_fits : forall f zs v, W -> one_of six f \/ others f -> Forall (fits t) zs -> call t rest f zs = Ok v -> fits t v.
Proof.
  intros f zs v w HO F X. pose proof (call_is f zs w HO F) as Q. rewrite X in Q. apply (function_fits f zs w v w F). unfold apply_function in *.
  destruct same_lookups as (_ & Q1 & _). rewrite Q1 in Q. exact Q.
Qed.

(** ** Expressions *)
Lemma constants_are : get_constant c (lit "PI") = Some 3 /\ get_constant c (lit "E") = Some 2.
Proof.
  pose proof H as H0. apply checked_inv in H0. destruct H0 as (p & e & P1 & P2 & ->). cbn [n_from_f64 int_num] in P1, P2.
  replace (f_trunc_Z f_PI) with (Some 3) in P1 by (vm_compute; reflexivity). replace (f_trunc_Z f_E) with (Some 2) in P2 by (vm_compute; reflexivity).
  unfold checked in P1, P2. destruct (in_range t 3); [|discriminate]. destruct (in_range t 2); [|discriminate]. injection P1 as <-. injection P2 as <-.
  cbn [to_ctx get_constant ctx_of d_consts]. split.
  - rewrite mget_cons, key_match_self by apply alike_refl. reflexivity.
  - rewrite mget_cons. replace (key_match E (lit "E") (lit "PI")) with false; [rewrite mget_cons, key_match_self by apply alike_refl; reflexivity|].
    symmetry. rewrite km_low by reflexivity. reflexivity.
Qed.
Lemma constant_is : forall x, one_of ["pi"; "e"]%string x -> get_constant c' x = Some (if named x "pi" then 3 else 2) /\ named x "e" = negb (named x "pi").
Proof.
  intros x (nm & Hn & K). cbn [In] in Hn. destruct same_lookups as (-> & _). destruct constants_are as [C1 C2].
  destruct Hn as [<-|[<-|[]]]; rewrite K; not_yet K; (split; [|reflexivity]); pose proof (named_alike _ _ K eq_refl) as A.
  - destruct (lookup_alike E d x (lit "PI")) as (-> & _); [|exact C1]. eapply alike_trans; [exact A|]. apply fold_alike. reflexivity.
  - destruct (lookup_alike E d x (lit "E")) as (-> & _); [|exact C2]. eapply alike_trans; [exact A|]. apply fold_alike. reflexivity.
Qed.

Fixpoint numbers_fit (e : expr Z) : Prop :=
  match e with
  | ENum z => fits t z
  | EVar _ | EConst _ => True
  | EGroup _ e | EPre _ e | EPost e _ => numbers_fit e
  | ECall _ _ args => (fix all es := match es with [] => True | e :: es' => numbers_fit e /\ all es' end) args
  | EBin _ l r | EMul l r => numbers_fit l /\ numbers_fit r
  end.
Lemma fits_small : forall z, 0 <= z -> get_constant c (lit "PI") = Some 3 -> z <= 3 -> fits t z.
Proof.
  intros z Z0 _ Z3. pose proof H as H0. apply checked_inv in H0. destruct H0 as (p & e & P1 & _ & _). cbn [n_from_f64 int_num] in P1.
  replace (f_trunc_Z f_PI) with (Some 3) in P1 by (vm_compute; reflexivity). unfold checked in P1. destruct (in_range t 3) eqn:R; [|discriminate]. apply fits_range in R.
  apply (fits_le t 3); [exact R|lia].
Qed.

Lemma calc_is : forall e w, calculator others e -> numbers_fit e -> denote c' e w = (calc e, w) /\ forall z, calc e = Ok z -> fits t z.
Proof.
  induction e as [v|x|x|g e IH|f g args IH|u e IH|e u IH|o l r IHl IHr|l r IHl IHr] using expr_ind'; intros w Hc Hn; cbn [denote SpecCalculator.calc calculator numbers_fit] in *.
  - split; [reflexivity|]. intros z X. injection X as <-. exact Hn.
  - unfold value_of. destruct (vars x) as [z|] eqn:Q; (split; [reflexivity|]); intros z' X; [|discriminate]. injection X as <-. exact (Hv x z Q).
  - destruct (constant_is x Hc) as [C1 C2]. unfold value_of. rewrite C1, C2. destruct (named x "pi"); (split; [reflexivity|]); intros z X; injection X as <-; (apply fits_small; [lia|apply constants_are|lia]).
  - apply IH; assumption.
  - destruct Hc as [Hf Ha].
    assert (A : forall w, sequence (map (denote c') args) w = (collect (map calc args), w) /\ forall zs, collect (map calc args) = Ok zs -> Forall (fits t) zs).
    { clear Hf w. induction args as [|a args IHa]; intros w; [split; [reflexivity|intros zs X; injection X as <-; constructor]|]. destruct Ha as [Ha1 Ha2]. destruct Hn as [Hn1 Hn2]. inversion IH as [|? ? I1 I2]; subst.
      destruct (I1 w Ha1 Hn1) as [B1 B2]. destruct (IHa I2 Ha2 Hn2 w) as [B3 B4]. cbn [map sequence collect]. unfold bind at 1. rewrite B1. destruct (calc a) as [z|k|]; [|split; [reflexivity|discriminate]..].
      cbn [then_]. unfold bind, ret. rewrite B3. destruct (collect (map calc args)) as [zs|k|]; [|split; [reflexivity|discriminate]..]. split; [reflexivity|]. intros zs' X. injection X as <-. constructor; [apply B2; reflexivity|apply B4; reflexivity]. }
    destruct (A w) as [A1 A2]. unfold bind. rewrite A1. destruct (collect (map calc args)) as [zs|k|]; [|split; [reflexivity|discriminate]..]. specialize (A2 zs eq_refl).
    cbn [then_]. rewrite (call_is f zs w Hf A2). split; [reflexivity|]. intros z X. exact (call_fits f zs z w Hf A2 X).
  - destruct Hc as [Hu Ha]. destruct (IH w Ha Hn) as [I1 I2]. unfold bind. rewrite I1. destruct (calc e) as [z|k|]; [|split; [reflexivity|discriminate]..]. specialize (I2 z eq_refl). cbn [then_].
    destruct Hu as (nm & Hm & K). cbn [In] in Hm. destruct Hm as [<-|[<-|[]]]; rewrite (un_alike u _ z w K eq_refl); rewrite ?K; not_yet K.
    + rewrite (c_uplus_is t dbg L rnd docs E cf d H). split; [reflexivity|]. intros y X. injection X as <-. exact I2.
    + rewrite (c_uminus_is t dbg L rnd docs E cf d H), <- put_is. split; [reflexivity|]. intros y X. apply put_fits in X. apply X.
  - destruct Hc as (Hu & Ha & _). destruct (IH w Ha Hn) as [I1 I2]. unfold bind. rewrite I1. destruct (calc e) as [z|k|]; [|split; [reflexivity|discriminate]..]. specialize (I2 z eq_refl). cbn [then_].
    destruct Hu as (nm & Hm & K). cbn [In] in Hm. destruct Hm as [<-|[]]. rewrite (factorial_is u z w I2 K). split; [reflexivity|]. intros y. apply factorial_fits.
  - destruct Hc as (Hop & H1 & H2). destruct Hn as [N1 N2]. destruct (IHl w H1 N1) as [A1 A2]. destruct (IHr w H2 N2) as [B1 B2]. unfold bind. rewrite A1. destruct (calc l) as [x|k|]; [|split; [reflexivity|discriminate]..].
    cbn [then_]. rewrite B1. destruct (calc r) as [y|k|]; [|split; [reflexivity|discriminate]..]. cbn [then_]. rewrite (operation_is o x y w Hop). split; [reflexivity|]. intros z. apply (operation_fits o x y z w); auto.
  - destruct Hc as (H1 & H2). destruct Hn as [N1 N2]. destruct (IHl w H1 N1) as [A1 A2]. destruct (IHr w H2 N2) as [B1 B2]. unfold bind. rewrite A1. destruct (calc l) as [x|k|]; [|split; [reflexivity|discriminate]..].
    cbn [then_]. rewrite B1. destruct (calc r) as [y|k|]; [|split; [reflexivity|discriminate]..]. cbn [then_].
    rewrite (bin_alike times "*" x y w eq_refl eq_refl), (c_times_is t dbg L rnd docs E cf d H), <- put_is. split; [reflexivity|]. intros z X. apply put_fits in X. apply X.
Qed.

(** ** How trees group *)
Definition ops : list string := ["+"; "-"; "*"; "/"; "mod"; "^"]%string.
Definition prec_of (o : str) : N := if named o "+" || named o "-" then LOW else if named o "^" then HIGH else MEDIUM.
Lemma bin_found : forall o, one_of ops o -> exists f, get_binary c' o = Some f /\ bf_prec f = prec_of o /\ bf_assoc f = (if named o "^" then RightA else LeftA).
Proof.
  intros o (nm & Hn & K). unfold prec_of. cbn [In ops] in Hn. destruct same_lookups as (_ & _ & _ & -> & _).
  destruct Hn as [<-|[<-|[<-|[<-|[<-|[<-|[]]]]]]]; pose proof (named_alike _ _ K eq_refl) as A; rewrite ?K; not_yet K; cbn [orb]; eexists.
  - split; [exact (checked_bin n L rnd docs E dbg cf d 0%nat _ o H eq_refl A)|split; reflexivity].
  - split; [exact (checked_bin n L rnd docs E dbg cf d 1%nat _ o H eq_refl A)|split; reflexivity].
  - split; [exact (checked_bin n L rnd docs E dbg cf d 2%nat _ o H eq_refl A)|split; reflexivity].
  - split; [exact (checked_bin n L rnd docs E dbg cf d 3%nat _ o H eq_refl A)|split; reflexivity].
  - split; [exact (checked_bin n L rnd docs E dbg cf d 5%nat _ o H eq_refl A)|split; reflexivity].
  - split; [exact (checked_bin n L rnd docs E dbg cf d 4%nat _ o H eq_refl A)|split; reflexivity].
Qed.
Lemma groups_is : forall o1 o2, one_of ops o1 -> one_of ops o2 -> (groups_left c' o1 o2 <-> binds_first o1 o2).
Proof.
  intros o1 o2 H1 H2. destruct (bin_found o1 H1) as (f1 & F1 & P1 & A1). destruct (bin_found o2 H2) as (f2 & F2 & P2 & A2).
  assert (G : groups_left c' o1 o2 <-> ((prec_of o2 < prec_of o1)%N \/ (prec_of o1 = prec_of o2 /\ named o1 "^" = false))).
  { unfold groups_left. split.
    - intros (g1 & g2 & G1 & G2 & G). rewrite F1 in G1. rewrite F2 in G2. injection G1 as <-. injection G2 as <-. rewrite P1, P2, A1 in G. destruct G as [G|[G1 G2]]; [left; exact G|right; split; [exact G1|]]. destruct (named o1 "^"); [discriminate|reflexivity].
    - intros G. exists f1, f2. split; [exact F1|]. split; [exact F2|]. rewrite P1, P2, A1. destruct G as [G|[G1 G2]]; [left; exact G|right; split; [exact G1|rewrite G2; reflexivity]]. }
  rewrite G. unfold binds_first, prec_of, strength. clear.
  assert (X : forall o, named o "^" = true -> named o "+" = false /\ named o "-" = false) by (intros o K; not_yet K; auto).
  destruct (named o1 "^") eqn:K1; destruct (named o2 "^") eqn:K2;
    try (destruct (X o1 K1) as [-> ->]); try (destruct (X o2 K2) as [-> ->]); cbn [orb];
    repeat match goal with |- context [named ?o ?m || named ?o ?k] => destruct (named o m || named o k) end;
    unfold LOW, MEDIUM, HIGH; split; intros [A|[A B]]; try discriminate; try lia; try (left; lia); try (right; split; [reflexivity|discriminate]); try (right; split; [reflexivity|reflexivity]); try contradiction.
Qed.
Lemma times_ok : one_of ops times.
Proof. exists "*"%string. split; [cbn; tauto|reflexivity]. Qed.
Lemma edge_ops : forall e, calculator others e -> (forall o, In o (left_ops e) -> one_of ops o) /\ (forall o, In o (right_ops e) -> one_of ops o).
Proof.
  induction e as [v|x|x|g e IH|f g args IH|u e IH|e u IH|o l r IHl IHr|l r IHl IHr] using expr_ind'; intros Hc; cbn [left_ops right_ops calculator] in *; try (split; intros o' []; fail).
  - destruct Hc as (A & B & C). destruct (IHl B) as [L1 _], (IHr C) as [_ R2]. split; intros o' X; apply in_app_or in X; destruct X as [X|[<-|[]]]; auto.
  - destruct Hc as (B & C). destruct (IHr C) as [_ R2]. split; [intros o' []|]. intros o' X; apply in_app_or in X; destruct X as [X|[<-|[]]]; auto. apply times_ok.
Qed.
Lemma un_found : forall u nm i f, named u nm = true -> map small (lit nm) = lit nm -> nth_error (checked_uns (W := W) n L) i = Some f -> uf_name f = lit nm -> get_unary c' u = Some f.
Proof.
  intros u nm i f K Lw Hi Hf. destruct same_lookups as (_ & _ & -> & _). apply (checked_un n L rnd docs E dbg cf d i f u H Hi). rewrite Hf. apply named_alike; assumption.
Qed.
Lemma grouped_wf : forall e, calculator others e -> grouped (implicit_mul cf) (custom_function_call cf) e -> wf c' e.
Proof.
  assert (CF : cfg c' = cf). { destruct same_lookups as (_ & _ & _ & _ & ->). pose proof H as H0. apply checked_inv in H0. destruct H0 as (p & e & _ & _ & ->). reflexivity. }
  induction e as [v|x|x|g e IH|f g args IH|u e IH|e u IH|o l r IHl IHr|l r IHl IHr] using expr_ind'; intros Hc Hg; cbn [wf grouped calculator] in *; try exact I; rewrite ?CF.
  - auto.
  - destruct Hc as [_ Ha]. destruct Hg as (G1 & G2 & G3). split; [exact G1|]. split; [exact G2|]. clear G1. induction args as [|a args IHa]; [exact I|]. destruct Ha as [Ha1 Ha2], G3 as [Ga1 Ga2]. inversion IH as [|? ? I1 I2]; subst. split; [apply I1; assumption|]. apply IHa; assumption.
  - destruct Hc as [(nm & Hn & K) Ha]. destruct Hg as [G1 G2]. split; [auto|]. split; [|exact G2]. cbn [In] in Hn. destruct Hn as [<-|[<-|[]]]; eexists.
    + split; [exact (un_found u _ 0%nat _ K eq_refl eq_refl eq_refl)|reflexivity].
    + split; [exact (un_found u _ 1%nat _ K eq_refl eq_refl eq_refl)|reflexivity].
  - destruct Hc as [(nm & Hn & K) [Ha _]]. destruct Hg as [G1 G2]. split; [auto|]. split; [|exact G2]. cbn [In] in Hn. destruct Hn as [<-|[]]. eexists.
    split; [exact (un_found u _ 2%nat _ K eq_refl eq_refl eq_refl)|reflexivity].
  - destruct Hc as (A & B & C). destruct Hg as (G1 & G2 & G3 & G4 & G5). split; [auto|]. split; [auto|]. destruct (bin_found o A) as (f & F & _). split; [rewrite F; discriminate|]. split; [exact G3|]. split.
    + intros o' X. apply groups_is; [apply (proj2 (edge_ops l B)); exact X|exact A|]. apply G4. exact X.
    + intros o' X Y. apply (G5 o' X). apply groups_is; [exact A|apply (proj1 (edge_ops r C)); exact X|exact Y].
  - destruct Hc as (B & C). destruct Hg as (G1 & G2 & G3 & G4 & G5). split; [auto|]. split; [auto|]. split; [exact G3|]. split; [exact G4|].
    intros o' X Y. apply (G5 o' X). apply groups_is; [apply times_ok|apply (proj1 (edge_ops r C)); exact X|exact Y].
Qed.

(** ** Texts *)
Lemma low_named : forall x nm, named x nm = true -> map small (lit nm) = lit nm -> get_constant c' x = get_constant c (lit nm) /\ get_function c' x = get_function c (lit nm) /\ get_unary c' x = get_unary c (lit nm) /\ get_binary c' x = get_binary c (lit nm).
Proof. intros x nm K Lw. destruct same_lookups as (-> & -> & -> & -> & _). apply (lookup_alike E d x (lit nm)). apply named_alike; assumption. Qed.
Lemma ident_not_number : forall x, ident_word x -> parse_int t x = None.
Proof.
  intros x (ch & r & -> & Hl & _). destruct (parse_int t (ch :: r)) as [v|] eqn:P; [|reflexivity]. exfalso. apply parse_int_spec in P; [|lia]. destruct P as [P _].
  assert (N : ~ digit ch /\ ch <> 43%N /\ ch <> 45%N) by (unfold digit, letter in *; lia).
  inversion P as [? ? D Dn| |]; subst; [|lia..]. pose proof (digits_char 10 _ _ ch ltac:(lia) D ltac:(left; reflexivity)). unfold digit in N. lia.
Qed.

Definition symbols : list string := ["+"; "-"; "*"; "/"; "^"; "!"; "("; ")"; "["; "]"; "{"; "}"; ","]%string.
Lemma symbol_not_number : forall q, In q symbols -> parse_int t (lit q) = None.
Proof.
  intros q Hq. cbn [In symbols] in Hq. unfold parse_int, from_str_radix.
  repeat (destruct Hq as [<-|Hq]; [reflexivity || (cbn; destruct (signed t); cbn; destruct (checked t _); reflexivity)|]). destruct Hq.
Qed.
Definition words_ : list string := symbols ++ ["mod"; "m"]%string.
Lemma words_absent : forall q, In q words_ -> get_constant c (lit q) = None /\ get_function c (lit q) = None.
Proof.
  assert (G : forallb (fun q => absent_all t dbg L rnd docs (lit q)) words_ = true) by (clear; unfold absent_all, checked_funs; destruct docs; vm_compute; reflexivity).
  intros q Hq. rewrite forallb_forall in G. destruct (names_absent t dbg L rnd docs E cf d H (lit q) (G q Hq)) as (_ & A & B). auto.
Qed.
Definition not_unary : list string := ["*"; "/"; "^"; "mod"; "m"; "("; ")"; "["; "]"; "{"; "}"; ","]%string.
Definition not_binary : list string := ["!"; "("; ")"; "["; "]"; "{"; "}"; ","]%string.
Lemma no_unary : forall q, In q not_unary -> get_unary c (lit q) = None.
Proof.
  assert (G : forallb (fun q => absent (lit q) [lit "+"; lit "-"; lit "!"]) not_unary = true) by (vm_compute; reflexivity).
  intros q Hq. rewrite forallb_forall in G. apply (un_absent t dbg L rnd docs E cf d H). exact (G q Hq).
Qed.
Lemma no_binary : forall q, In q not_binary -> get_binary c (lit q) = None.
Proof.
  assert (G : forallb (fun q => absent (lit q) (map (@bf_name Z W) (checked_bins n L))) not_binary = true) by (clear; vm_compute; reflexivity).
  intros q Hq. rewrite forallb_forall in G. apply (bin_absent t dbg L rnd docs E cf d H). exact (G q Hq).
Qed.

(** Words of one ASCII symbol have one spelling; [mod] is a word of letters. *)
Lemma named_symbol : forall x q, In q symbols -> named x q = true -> x = lit q.
Proof.
  intros x q Hq K. apply named_alike in K; [|cbn [In symbols] in Hq; repeat (destruct Hq as [<-|Hq]; [reflexivity|]); destruct Hq].
  assert (S : exists ch, lit q = [ch] /\ (ch < 65 \/ 90 < ch < 97 \/ 122 < ch)%N).
  { cbn [In symbols] in Hq. repeat (destruct Hq as [<-|Hq]; [eexists; split; [reflexivity|vm_compute; first [left; reflexivity|right; left; split; reflexivity|right; right; reflexivity]]|]). destruct Hq. }
  destruct S as (ch & Eq & S). rewrite Eq in *. destruct x as [|a [|a' x]]; [inversion K| |inversion K as [|? ? ? ? _ K']; inversion K'].
  inversion K as [|? ? ? ? A _]; subst. f_equal. unfold same_letter in A. lia.
Qed.
Lemma letters_alike : forall x y, ascii_alike x y -> Forall letter y -> Forall letter x.
Proof. intros x y A. induction A as [|a b x y Hab _ IH]; intros F; [constructor|]. inversion F; subst. constructor; [|auto]. unfold letter, same_letter in *. lia. Qed.
Lemma named_mod : forall x, named x "mod" = true -> ident_word x /\ exists ch r, x = ch :: r /\ r <> [] /\ named [ch] "m" = true.
Proof.
  intros x K. apply named_alike in K; [|reflexivity]. change (lit "mod") with [109%N; 111%N; 100%N] in K.
  assert (F : Forall letter x). { apply (letters_alike x _ K). repeat constructor; unfold letter; lia. }
  destruct x as [|a [|a' l2]]; [inversion K|inversion K as [|? ? ? ? _ K']; inversion K'|]. inversion K as [|? ? ? ? A _]; subst. inversion F; subst. split.
  - exists a, (a' :: l2). split; [reflexivity|]. split; [assumption|]. eapply Forall_impl; [|eassumption]. auto.
  - exists a, (a' :: l2). split; [reflexivity|]. split; [discriminate|]. apply alike_named; [|reflexivity]. constructor; [exact A|constructor].
Qed.

Lemma op_kind : forall o, one_of ops o -> (exists q, o = lit q /\ In q ["+"; "-"; "*"; "/"; "^"]%string) \/ named o "mod" = true.
Proof.
  intros o (nm & Hn & K). cbn [In ops] in Hn.
  destruct Hn as [<-|[<-|[<-|[<-|[<-|[<-|[]]]]]]]; try (right; exact K); left; eexists; (split; [apply named_symbol; [|exact K]; cbn; tauto|cbn; tauto]).
Qed.
Lemma ops_only : forall o, one_of ops o -> vars o = None -> operator_only c' (parse_int t) o.
Proof.
  intros o Ho' Hn. unfold operator_only, variable, constant, function. rewrite Hn. destruct (op_kind o Ho') as [(q & -> & Hq)|K].
  - assert (Hq' : In q symbols) by (cbn [In] in Hq; cbn; tauto). assert (Hw : In q words_) by (apply in_or_app; left; exact Hq'). destruct same_lookups as (-> & -> & _). destruct (words_absent q Hw) as [-> ->]. split; [apply symbol_not_number; exact Hq'|]. tauto.
  - destruct (low_named o "mod" K eq_refl) as (-> & -> & _). destruct (words_absent "mod"%string ltac:(cbn; tauto)) as [-> ->]. split; [apply ident_not_number; apply named_mod; exact K|]. tauto.
Qed.
Lemma ops_shape : forall o, one_of ops o -> ident_word o \/ operator_word o.
Proof.
  intros o Ho'. destruct (op_kind o Ho') as [(q & -> & Hq)|K]; [right|left; apply named_mod; exact K]. cbn [In] in Hq.
  repeat (destruct Hq as [<-|Hq]; [split; [discriminate|]; split; [constructor; [apply op_spec; reflexivity|constructor]|]; intros ch r X; injection X as <- <-; unfold letter; lia|]). destruct Hq.
Qed.
Lemma sign_notation : forall q nt, In q ["+"; "-"]%string -> has_notation c' (lit q) nt -> nt = Prefix.
Proof.
  intros q nt Hq (f & Hf & <-). cbn [In] in Hq. destruct Hq as [<-|[<-|[]]].
  - rewrite (un_found (lit "+") "+"%string 0%nat _ eq_refl eq_refl eq_refl eq_refl) in Hf. injection Hf as <-. reflexivity.
  - rewrite (un_found (lit "-") "-"%string 1%nat _ eq_refl eq_refl eq_refl eq_refl) in Hf. injection Hf as <-. reflexivity.
Qed.
Lemma ops_not_postfix : forall o, one_of ops o -> ~ has_notation c' o Postfix.
Proof.
  intros o Ho' X. destruct (op_kind o Ho') as [(q & -> & Hq)|K].
  - assert (S : In q ["+"; "-"]%string \/ In q not_unary) by (cbn [In] in Hq |- *; cbn; tauto). destruct S as [S|S]; [discriminate (sign_notation q _ S X)|].
    destruct X as (f & Hf & _). destruct same_lookups as (_ & _ & Hu & _). rewrite Hu, (no_unary q S) in Hf. discriminate.
  - destruct X as (f & Hf & _). destruct (low_named o "mod" K eq_refl) as (_ & _ & Hu & _). rewrite Hu, (no_unary "mod"%string ltac:(cbn; tauto)) in Hf. discriminate.
Qed.
Lemma ops_signs : forall o, one_of ops o -> sign_may_follow c' o.
Proof.
  intros o Ho'. destruct (op_kind o Ho') as [(q & -> & Hq)|K]; split.
  - intros (ch & r & X & Hu & Hn). assert (R : r = []) by (cbn [In] in Hq; repeat (destruct Hq as [<-|Hq]; [injection X as <- <-; reflexivity|]); destruct Hq). subst r. rewrite <- X in Hn. apply Hn.
    unfold binary. destruct (bin_found (lit q) Ho') as (f & F & _). rewrite F. discriminate.
  - intros (ch & X & Hp'). cbn [In] in Hq. repeat (destruct Hq as [<-|Hq]; [injection X as <-; discriminate|]). destruct Hq.
  - destruct (named_mod o K) as (_ & ch & r & -> & _ & Km). intros (ch' & r' & X & Hu & _). injection X as <- <-. apply Hu. unfold unary. destruct (low_named [ch] "m" Km eq_refl) as (_ & _ & -> & _). apply no_unary. cbn; tauto.
  - destruct (named_mod o K) as (_ & ch & r & -> & Hr & _). intros (ch' & X & _). injection X as _ X. contradiction.
Qed.
Definition punctuation : list string := ["("; ")"; "["; "]"; "{"; "}"; ","]%string.
Lemma punctuation_nameless : forall q, In q punctuation -> vars (lit q) = None -> nameless c' (parse_int t) (lit q).
Proof.
  intros q Hq Hn. assert (S1 : In q symbols /\ In q words_ /\ In q not_unary /\ In q not_binary) by (cbn [In punctuation] in Hq; cbn; tauto). destruct S1 as (S1 & S2 & S3 & S4).
  unfold nameless, operator_only, variable, constant, function, unary, binary. rewrite Hn. destruct same_lookups as (-> & -> & -> & -> & _). destruct (words_absent q S2) as [-> ->]. rewrite (no_unary q S3), (no_binary q S4), (symbol_not_number q S1). tauto.
Qed.
Lemma bracket_lit : forall g, (exists q, [grouping_open g] = lit q /\ In q punctuation) /\ (exists q, [grouping_close g] = lit q /\ In q punctuation).
Proof.
  intros []; split; eexists.
  - split; [exact (eq_refl (lit "("))|cbn; tauto].
  - split; [exact (eq_refl (lit ")"))|cbn; tauto].
  - split; [exact (eq_refl (lit "["))|cbn; tauto].
  - split; [exact (eq_refl (lit "]"))|cbn; tauto].
  - split; [exact (eq_refl (lit "{"))|cbn; tauto].
  - split; [exact (eq_refl (lit "}"))|cbn; tauto].
Qed.

(** Each token of an expression is spelt unambiguously. *)
Definition token_ok (tk : token Z) : Prop :=
  match tk with
  | TNumber v => True
  | TVariable _ | TComma => True
  | TConstant x => one_of ["pi"; "e"]%string x
  | TFunction f => one_of six f \/ others f
  | TUnary u => one_of ["+"; "-"; "!"]%string u
  | TBinary o => one_of ops o
  | TOpen k => exists g, k = grouping_open g
  | TClose k => exists g, k = grouping_close g
  | _ => False
  end.
Lemma tokens_ok : forall e, calculator others e -> Forall token_ok (print e).
Proof.
  assert (J : forall l, Forall (Forall token_ok) l -> Forall token_ok (join [TComma] l)).
  { induction l as [|a l IH]; intros F; [constructor|]. inversion F; subst. cbn [join]. destruct l; [assumption|]. apply Forall_app. split; [assumption|]. constructor; [exact I|]. apply IH. assumption. }
  induction e as [v|x|x|g e IH|f g args IH|u e IH|e u IH|o l r IHl IHr|l r IHl IHr] using expr_ind'; intros Hc; cbn [print calculator] in *.
  - repeat constructor.
  - repeat constructor.
  - constructor; [exact Hc|constructor].
  - constructor; [exists g; reflexivity|]. apply Forall_app. split; [auto|]. constructor; [exists g; reflexivity|constructor].
  - destruct Hc as [Hf Ha]. constructor; [exact Hf|]. constructor; [exists g; reflexivity|]. apply Forall_app. split; [|constructor; [exists g; reflexivity|constructor]].
    apply J. clear Hf. induction args as [|a args IHa]; [constructor|]. destruct Ha as [Ha1 Ha2]. inversion IH; subst. constructor; [auto|]. apply IHa; assumption.
  - destruct Hc as [(nm & Hn & K) Ha]. constructor; [|auto]. exists nm. split; [cbn [In] in Hn |- *; tauto|exact K].
  - destruct Hc as [(nm & Hn & K) [Ha _]]. apply Forall_app. split; [auto|]. constructor; [|constructor]. exists nm. split; [cbn [In] in Hn |- *; tauto|exact K].
  - destruct Hc as (A & B & C). apply Forall_app. split; [auto|]. constructor; [exact A|auto].
  - destruct Hc as (B & C). apply Forall_app. split; auto.
Qed.
Lemma six_found : forall f, one_of six f -> get_constant c' f = None /\ get_function c' f <> None.
Proof.
  intros f (nm & Hn & K). assert (A : get_constant c (lit nm) = None).
  { assert (G : forallb (fun q => absent (lit q) [lit "PI"; lit "E"]) six = true) by (vm_compute; reflexivity). rewrite forallb_forall in G. specialize (G nm Hn).
    pose proof H as H0. apply checked_inv in H0. destruct H0 as (p & e & _ & _ & ->). cbn [to_ctx get_constant ctx_of d_consts]. apply mget_none.
    apply andb_true_iff in G. destruct G as [G X3]. apply andb_true_iff in G. destruct G as [X2 X4].
    cbn [forallb] in X3. apply andb_true_iff in X3. destruct X3 as [X3 X5]. apply andb_true_iff in X5. destruct X5 as [X5 _]. apply negb_true_iff in X3, X5.
    repeat constructor; cbn [fst]; rewrite km_low; try assumption; reflexivity. }
  assert (Lw : map small (lit nm) = lit nm) by (cbn [In six] in Hn; repeat (destruct Hn as [<-|Hn]; [reflexivity|]); destruct Hn).
  destruct (low_named f nm K Lw) as (-> & -> & _). split; [exact A|]. cbn [In six] in Hn.
  destruct Hn as [<-|[<-|[<-|[<-|[<-|[<-|[]]]]]]].
  - rewrite (checked_fun n L rnd docs E dbg cf d 0%nat _ (lit "sum") H eq_refl (alike_refl _)). discriminate.
  - rewrite (checked_fun n L rnd docs E dbg cf d 1%nat _ (lit "product") H eq_refl (alike_refl _)). discriminate.
  - rewrite (checked_fun n L rnd docs E dbg cf d 2%nat _ (lit "avg") H eq_refl (alike_refl _)). discriminate.
  - rewrite (checked_fun n L rnd docs E dbg cf d 3%nat _ (lit "max") H eq_refl (alike_refl _)). discriminate.
  - rewrite (checked_fun n L rnd docs E dbg cf d 4%nat _ (lit "min") H eq_refl (alike_refl _)). discriminate.
  - rewrite (checked_fun n L rnd docs E dbg cf d 5%nat _ (lit "abs") H eq_refl (alike_refl _)). discriminate.
Qed.
Lemma word_spells : forall tk wd, token_ok tk -> calc_word t vars tk wd -> spells c' (parse_int t) tk wd.
Proof.
  intros tk wd Ht Hw. destruct tk as [v|x|x|x|x|x|k|k|k|x|]; cbn [token_ok calc_word spells] in *; try contradiction.
  - destruct Hw as (A & B & C). apply parse_int_spec; [lia|]. split; [apply numeral_plain; assumption|exact C].
  - destruct Hw as (-> & A & B). split; [reflexivity|]. split; [apply ident_not_number; exact A|exact B].
  - destruct Hw as (-> & A & B). destruct (constant_is x Ht) as [C _]. split; [reflexivity|]. split; [apply ident_not_number; exact A|]. unfold variable, constant. rewrite B, C. split; [tauto|discriminate].
  - destruct Hw as (-> & A & B). split; [reflexivity|]. split; [apply ident_not_number; exact A|]. unfold variable, constant, function. rewrite B.
    destruct Ht as [Ht|Ht].
    + destruct (six_found x Ht) as [-> F]. tauto.
    + destruct (Ho x Ht) as (C1 & C2 & _). destruct same_lookups as (-> & -> & _). rewrite C1. tauto.
  - destruct Hw as (-> & B). split; [reflexivity|]. split; [apply ops_only; assumption|]. split; [apply ops_shape; exact Ht|apply ops_not_postfix; exact Ht].
  - destruct Hw as (-> & B). split; [reflexivity|]. destruct Ht as (nm & Hn & K). cbn [In] in Hn.
    assert (Hs' : In nm symbols) by (cbn; tauto). pose proof (named_symbol x nm Hs' K) as ->.
    assert (Op : nm <> "!"%string -> one_of ops (lit nm)) by (intros N; exists nm; split; [cbn; cbn [In] in Hn; destruct Hn as [<-|[<-|[<-|[]]]]; tauto|exact K]).
    destruct Hn as [<-|[<-|[<-|[]]]].
    + split; [apply ops_only; [apply Op; discriminate|exact B]|]. split; [apply ops_shape, Op; discriminate|]. intros X. discriminate (sign_notation "+"%string _ ltac:(cbn; tauto) X).
    + split; [apply ops_only; [apply Op; discriminate|exact B]|]. split; [apply ops_shape, Op; discriminate|]. intros X. discriminate (sign_notation "-"%string _ ltac:(cbn; tauto) X).
    + split.
      { unfold operator_only, variable, constant, function. rewrite B. destruct same_lookups as (-> & -> & _). destruct (words_absent "!"%string ltac:(cbn; tauto)) as [-> ->]. split; [apply symbol_not_number; exact Hs'|]. tauto. }
      split; [right; split; [discriminate|]; split; [constructor; [apply op_spec; reflexivity|constructor]|]; intros ch r X; injection X as <- <-; unfold letter; lia|].
      intros _. exists 33%N, []. split; [reflexivity|]. unfold unary, binary. change [33%N] with (lit "!"). rewrite (un_found (lit "!") "!"%string 2%nat _ eq_refl eq_refl eq_refl eq_refl).
      destruct same_lookups as (_ & _ & _ & -> & _). rewrite (no_binary "!"%string ltac:(cbn; tauto)). split; [discriminate|tauto].
  - destruct Ht as (g & ->). destruct Hw as (-> & B). split; [reflexivity|]. destruct (bracket_lit g) as [(q & X & Hq) _]. rewrite X in *. apply punctuation_nameless; assumption.
  - destruct Ht as (g & ->). destruct Hw as (-> & B). split; [reflexivity|]. destruct (bracket_lit g) as [_ (q & X & Hq)]. rewrite X in *. apply punctuation_nameless; assumption.
  - destruct Hw as (-> & B). split; [reflexivity|]. apply punctuation_nameless; [cbn; tauto|exact B].
Qed.
Lemma calculator_readable : forall e, calculator others e -> readable c' e.
Proof.
  induction e as [v|x|x|g e IH|f g args IH|u e IH|e u IH|o l r IHl IHr|l r IHl IHr] using expr_ind'; intros Hc; cbn [readable calculator] in *; auto.
  - destruct Hc as [_ Ha]. induction args as [|a args IHa]; [exact I|]. destruct Ha as [Ha1 Ha2]. inversion IH; subst. split; [auto|]. apply IHa; assumption.
  - destruct Hc as [(nm & Hn & K) Ha]. split; [auto|]. intros _. apply ops_signs. exists nm. split; [cbn [In ops] in *; tauto|exact K].
  - destruct Hc as [_ [A B]]. split; [auto|exact B].
  - destruct Hc as (A & B & C). split; [auto|]. split; [auto|]. intros _. apply ops_signs. exact A.
  - destruct Hc as (B & C). split; auto.
Qed.
Lemma calc_text : forall e s ws, calculator others e -> Forall2 (calc_word t vars) (print e) ws -> lexes s ws -> (complex_number cf = true -> ~ In (lit "i") ws) -> text_of c' (parse_int t) e s.
Proof.
  intros e s ws Hc Hw Hl Hi. exists ws. split; [exact Hl|]. split.
  - pose proof (tokens_ok e Hc) as T. revert T. clear Hl Hi Hc. induction Hw as [|tk wd tks wds A _ IH]; intros T; [constructor|]. inversion T; subst. constructor; [apply word_spells; assumption|]. apply IH. assumption.
  - split; [apply calculator_readable; exact Hc|]. destruct same_lookups as (_ & _ & _ & _ & ->). replace (cfg c) with cf; [exact Hi|]. pose proof H as H0. apply checked_inv in H0. destruct H0 as (p & e0 & _ & _ & ->). reflexivity.
Qed.
Lemma words_fit : forall e ws, Forall2 (calc_word t vars) (print e) ws -> numbers_fit e.
Proof.
  assert (J : forall args, Forall (fun e => forall ws, Forall2 (calc_word t vars) (print e) ws -> numbers_fit e) args -> forall ws, Forall2 (calc_word t vars) (join [TComma] (map print args)) ws ->
    (fix all es := match es with [] => True | e :: es' => numbers_fit e /\ all es' end) args).
  { induction args as [|a args IH]; intros F ws Hw; [exact I|]. inversion F as [|? ? F1 F2]; subst. destruct args as [|b args].
    - cbn [map join] in Hw. split; [eapply F1; exact Hw|exact I].
    - cbn [map join] in Hw. apply Forall2_app_inv_l in Hw. destruct Hw as (w1 & w2 & S1 & S2 & ->). split; [eapply F1; exact S1|]. cbn [app] in S2. inversion S2; subst. eapply IH; eassumption. }
  induction e as [v|x|x|g e IH|f g args IH|u e IH|e u IH|o l r IHl IHr|l r IHl IHr] using expr_ind'; intros ws Hw; cbn [print numbers_fit] in *; try exact I.
  - inversion Hw as [|? ? ? ? A _]; subst. apply A.
  - cbn [app] in Hw. inversion Hw as [|? ? ? ? _ B]; subst. apply Forall2_app_inv_l in B. destruct B as (w1 & w2 & S1 & S2 & ->). eapply IH; exact S1.
  - cbn [app] in Hw. inversion Hw as [|? ? ? ? _ B]; subst. inversion B as [|? ? ? ? _ C]; subst. apply Forall2_app_inv_l in C. destruct C as (w1 & w2 & S1 & S2 & ->). eapply J; eassumption.
  - cbn [app] in Hw. inversion Hw as [|? ? ? ? _ B]; subst. eapply IH; exact B.
  - apply Forall2_app_inv_l in Hw. destruct Hw as (w1 & w2 & S1 & S2 & ->). eapply IH; exact S1.
  - apply Forall2_app_inv_l in Hw. destruct Hw as (w1 & w2 & S1 & S2 & ->). cbn [app] in S2. inversion S2; subst. split; [eapply IHl|eapply IHr]; eassumption.
  - apply Forall2_app_inv_l in Hw. destruct Hw as (w1 & w2 & S1 & S2 & ->). split; [eapply IHl|eapply IHr]; eassumption.
Qed.
End Values.

Lemma calc_vars : forall t dbg vars vars' power rest, (forall x : str, vars x = vars' x) -> forall e, calc t dbg vars power rest e = calc t dbg vars' power rest e.
Proof.
  intros t dbg vars vars' power rest V.
  refine (expr_ind' _ _ _ _ _ _ _ _ _ _ _); intros; cbn [calc]; rewrite ?V; try congruence.
  - replace (map (calc t dbg vars power rest) args) with (map (calc t dbg vars' power rest) args); [reflexivity|].
    apply map_ext_in. intros a Ha. rewrite Forall_forall in *. symmetry. auto.
  - rewrite H, H0. reflexivity.
  - rewrite H, H0. reflexivity.
Qed.
