(** * C91: the unchecked context over a number type without limits computes exactly *)
From Coq Require Import List NArith ZArith QArith Qminmax Qreduction Qcanon Bool Arith Lia Lqa String.
From Verif Require Import ModelBase ModelContext ModelEvaluator ModelText ModelDefault ModelFloat ModelNum ModelOps ModelSplit ModelTokenizer ModelParse ModelStd
  SpecExpr SpecText SpecOps SpecLex SpecParse SpecTokenizer SpecRepl ProofText ProofDefault ProofBuild ProofCtx ProofOps ProofParse ProofSplit ProofIntText ProofTok2 ProofWf PropLex SpecCalculator ProofCalculator SpecExact.
Import ListNotations.
Local Open Scope Q_scope.

(** ** The operations *)
Section Num.
Context {V : Type}.
Variables (n : num V) (L : libm) (val : V -> Q) (eq_ : Q -> Q -> bool).
Hypothesis Hn : exact_num n val eq_.

Lemma x_lt : forall x y, n_lt n x y = true <-> val x < val y.
Proof using Hn. clear L. intros x y. unfold n_lt. rewrite (x_cmp _ _ _ Hn), Qlt_alt. destruct (val x ?= val y); split; congruence. Qed.
Lemma x_gt : forall x y, n_gt n x y = true <-> val y < val x.
Proof using Hn. clear L. intros x y. unfold n_gt. rewrite (x_cmp _ _ _ Hn), Qgt_alt. destruct (val x ?= val y); split; congruence. Qed.
Lemma x_ge : forall x y, n_ge n x y = true <-> val y <= val x.
Proof using Hn. clear L. intros x y. unfold n_ge. rewrite (x_cmp _ _ _ Hn), Qge_alt. destruct (val x ?= val y); split; congruence. Qed.

Lemma fact_loop_exact : forall m fuel total next, val next == inject_Z (Z.of_nat m) -> (m <= fuel)%nat ->
  exists total' next', fact_loop n fuel total next = Some (Ok (total', next')) /\ val total' == val total * inject_Z (fact m) /\ val next' == 0.
Proof using Hn.
  clear L. intros m. induction m as [|m IH]; intros fuel total nx Hx Hf.
  - exists total, nx. assert (G : n_ge n nx (n_one n) = false).
    { destruct (n_ge n nx (n_one n)) eqn:K; [|reflexivity]. apply x_ge in K. rewrite (x_one _ _ _ Hn), Hx in K. exfalso. apply K. reflexivity. }
    split; [|split; [cbn; ring|exact Hx]]. destruct fuel; cbn [fact_loop]; rewrite G; reflexivity.
  - destruct fuel as [|fuel]; [lia|]. assert (G : n_ge n nx (n_one n) = true).
    { apply x_ge. rewrite (x_one _ _ _ Hn), Hx. unfold Qle. cbn. lia. }
    cbn [fact_loop]. rewrite G. destruct (x_mul _ _ _ Hn total nx) as (t' & -> & T). destruct (x_sub _ _ _ Hn nx (n_one n)) as (nx' & -> & X).
    destruct (IH fuel t' nx') as (t2 & n2 & -> & A & B); [|lia|].
    { rewrite X, Hx, (x_one _ _ _ Hn). rewrite Nat2Z.inj_succ. unfold Z.succ. rewrite inject_Z_plus. change (inject_Z 1) with 1. ring. }
    exists t2, n2. split; [reflexivity|split; [|exact B]]. rewrite A, T, Hx. change (fact (S m)) with (Z.of_nat (S m) * fact m)%Z. rewrite inject_Z_mult. ring.
Qed.

Lemma factorial_exact : forall x k, val x == inject_Z k -> (0 <= k)%Z ->
  exists r, factorial n L (n_fuel n x) x = Some (Ok r) /\ val r == inject_Z (fact (Z.to_nat k)).
Proof using Hn.
  intros x k Hx Hk. unfold factorial.
  assert (N : n_lt n x (n_zero n) = false). { destruct (n_lt n x (n_zero n)) eqn:K; [|reflexivity]. apply x_lt in K. rewrite (x_zero _ _ _ Hn), Hx in K. unfold Qlt in K. cbn in K. lia. }
  rewrite N. destruct (n_is_zero n x) eqn:Z0.
  { apply (x_is_zero _ _ _ Hn) in Z0. exists (n_one n). split; [reflexivity|]. rewrite (x_one _ _ _ Hn). rewrite Z0 in Hx. unfold Qeq in Hx. cbn in Hx. assert (k = 0%Z) by lia. subst k. reflexivity. }
  destruct (n_is_one n x) eqn:Z1.
  { apply (x_is_one _ _ _ Hn) in Z1. exists (n_one n). split; [reflexivity|]. rewrite (x_one _ _ _ Hn). rewrite Z1 in Hx. unfold Qeq in Hx. cbn in Hx. assert (k = 1%Z) by lia. subst k. reflexivity. }
  cbn [orb]. assert (K2 : (2 <= k)%Z).
  { assert (k <> 0%Z). { intros ->. assert (X : n_is_zero n x = true) by (apply (x_is_zero _ _ _ Hn); exact Hx). congruence. }
    assert (k <> 1%Z). { intros ->. assert (X : n_is_one n x = true) by (apply (x_is_one _ _ _ Hn); exact Hx). congruence. } lia. }
  assert (N1 : n_lt n x (n_one n) = false). { destruct (n_lt n x (n_one n)) eqn:K; [|reflexivity]. apply x_lt in K. rewrite (x_one _ _ _ Hn), Hx in K. unfold Qlt in K. cbn in K. lia. }
  rewrite N1. destruct (x_sub _ _ _ Hn x (n_one n)) as (nx & -> & X).
  destruct (fact_loop_exact (Z.to_nat (k - 1)) (n_fuel n x) x nx) as (t & n2 & -> & A & B).
  { rewrite X, Hx, (x_one _ _ _ Hn), Z2Nat.id by lia. unfold Z.sub. rewrite inject_Z_plus. change (inject_Z (- (1))) with (- (1)). ring. }
  { pose proof (x_turns _ _ _ Hn x k Hx). lia. }
  assert (Z2 : n_is_zero n n2 = true) by (apply (x_is_zero _ _ _ Hn); exact B). rewrite Z2. cbn [negb]. exists t. split; [reflexivity|].
  rewrite A, Hx. replace (Z.to_nat k) with (S (Z.to_nat (k - 1))) by lia. change (fact (S (Z.to_nat (k - 1)))) with (Z.of_nat (S (Z.to_nat (k - 1))) * fact (Z.to_nat (k - 1)))%Z.
  rewrite inject_Z_mult. replace (Z.of_nat (S (Z.to_nat (k - 1)))) with k by lia. reflexivity.
Qed.
Lemma factorial_said : forall x q r, val x == q -> q_factorial q = Some r ->
  equals val (match factorial n L (n_fuel n x) x with Some r => r | None => Panic end) r.
Proof using Hn.
  intros x q r Hx. unfold q_factorial. destruct (Qle_bool 0 q) eqn:P.
  - apply Qle_bool_iff in P. destruct (Pos.eqb_spec (Qden (Qred q)) 1) as [D|D]; [|discriminate]. intros K. injection K as <-.
    assert (Q1 : q == inject_Z (Qnum (Qred q))). { rewrite <- (Qred_correct q) at 1. destruct (Qred q) as [a b]. cbn in D |- *. subst b. reflexivity. }
    assert (P1 : (0 <= Qnum (Qred q))%Z). { rewrite Q1 in P. unfold Qle in P. cbn in P. lia. }
    destruct (factorial_exact x (Qnum (Qred q)) ltac:(rewrite Hx; exact Q1) P1) as (y & -> & Y). exact Y.
  - intros K. injection K as <-. unfold factorial.
    assert (N : n_lt n x (n_zero n) = true). { apply x_lt. rewrite (x_zero _ _ _ Hn), Hx. apply Qnot_le_lt. intros C. apply Qle_bool_iff in C. congruence. }
    rewrite N. reflexivity.
Qed.

(** Values of the same rational value. *)
Notation worth := (Forall2 (fun v q => val v == q)).
Lemma fold_exact : forall (f : V -> V -> res V) (g : Q -> Q -> Q), (forall x y p q, val x == p -> val y == q -> exists z, f x y = Ok z /\ val z == g p q) ->
  forall vs qs v q, worth vs qs -> val v == q -> exists z, fold_args f (Some v) vs = Ok (Some z) /\ val z == fold_left g qs q.
Proof using.
  clear. intros f g Hf vs qs v q H. revert v q. induction H as [|v' q' vs qs A _ IH]; intros v q Hv; cbn [fold_args fold_left]; [eauto|].
  destruct (Hf v v' q q' Hv A) as (z & -> & Z). cbn [rbind]. apply IH. exact Z.
Qed.
Lemma add_exact : forall x y p q, val x == p -> val y == q -> exists z, n_add n x y = Ok z /\ val z == p + q.
Proof using Hn. intros x y p q A B. destruct (x_add _ _ _ Hn x y) as (z & -> & Z). exists z. split; [reflexivity|]. rewrite Z, A, B. reflexivity. Qed.
Lemma sub_exact : forall x y p q, val x == p -> val y == q -> exists z, n_sub n x y = Ok z /\ val z == p - q.
Proof using Hn. intros x y p q A B. destruct (x_sub _ _ _ Hn x y) as (z & -> & Z). exists z. split; [reflexivity|]. rewrite Z, A, B. reflexivity. Qed.
Lemma mul_exact : forall x y p q, val x == p -> val y == q -> exists z, n_mul n x y = Ok z /\ val z == p * q.
Proof using Hn. intros x y p q A B. destruct (x_mul _ _ _ Hn x y) as (z & -> & Z). exists z. split; [reflexivity|]. rewrite Z, A, B. reflexivity. Qed.

Lemma best_exact : forall (better : V -> V -> bool) (g : Q -> Q -> Q), (forall x a p q, val x == p -> val a == q -> val (if better x a then x else a) == g q p) ->
  forall vs qs v q, worth vs qs -> val v == q -> exists z, best better (Some v) vs = Some z /\ val z == fold_left g qs q.
Proof using.
  clear. intros better g Hg vs qs v q H. revert v q. induction H as [|v' q' vs qs A _ IH]; intros v q Hv; cbn [best fold_left]; [eauto|].
  destruct (IH (if better v' v then v' else v) (g q q') (Hg v' v q' q A Hv)) as (z & Z1 & Z2). exists z. split; [|exact Z2]. destruct (better v' v); exact Z1.
Qed.
Lemma max_exact : forall x a p q, val x == p -> val a == q -> val (if n_gt n x a then x else a) == Qmax q p.
Proof using Hn.
  intros x a p q X A. rewrite <- X, <- A. destruct (n_gt n x a) eqn:K.
  - apply x_gt in K. symmetry. apply Q.max_r. apply Qlt_le_weak. exact K.
  - symmetry. apply Q.max_l. apply Qnot_lt_le. intros C. apply x_gt in C. congruence.
Qed.
Lemma min_exact : forall x a p q, val x == p -> val a == q -> val (if n_lt n x a then x else a) == Qmin q p.
Proof using Hn.
  intros x a p q X A. rewrite <- X, <- A. destruct (n_lt n x a) eqn:K.
  - apply x_lt in K. symmetry. apply Q.min_r. apply Qlt_le_weak. exact K.
  - symmetry. apply Q.min_l. apply Qnot_lt_le. intros C. apply x_lt in C. congruence.
Qed.
End Num.

(** ** Expressions *)
Section Values.
Context {V W : Type}.
Variables (n : num V) (L : libm) (rnd : W -> f64 * W) (E : env) (dbg : bool) (cf : config) (d d' : dctx V W) (val : V -> Q) (eq_ : Q -> Q -> bool).
Hypothesis Hn : exact_num n val eq_.
Hypothesis H : unchecked_context n L rnd E dbg cf = Ok d.
Hypothesis Hs : same_but_variables d d'.
Notation c := (to_ctx E d).
Notation c' := (to_ctx E d').
Variable vars : str -> option Q.
Hypothesis Hv : forall x, match get_variable c' x, vars x with Some v, Some q => val v == q | None, None => True | _, _ => False end.

Lemma lookups : get_function c' = get_function c /\ get_unary c' = get_unary c /\ get_binary c' = get_binary c.
Proof using Hs. destruct Hs as (A1 & A2 & A3 & A4 & A5). cbn [to_ctx get_function get_unary get_binary]. rewrite ?A1, ?A2, ?A3, ?A4, ?A5. auto. Qed.
Lemma bin_at : forall i f o name x y w, nth_error (unchecked_bins (W := W) n L) i = Some f -> bf_name f = lit name -> named o name = true -> map small (lit name) = lit name ->
  apply_binary c' o x y w = bf_call f x y w.
Proof using H Hs.
  intros i f o name x y w Hi Hf K Ks. unfold apply_binary. destruct lookups as (_ & _ & ->). rewrite (unchecked_bin n L rnd E dbg cf d i f o H Hi); [reflexivity|].
  rewrite Hf. apply named_alike; assumption.
Qed.
Lemma un_at : forall i f o name x w, nth_error (unchecked_uns (W := W) n L) i = Some f -> uf_name f = lit name -> named o name = true -> map small (lit name) = lit name ->
  apply_unary c' o x w = uf_call f x w.
Proof using H Hs.
  intros i f o name x w Hi Hf K Ks. unfold apply_unary. destruct lookups as (_ & -> & _). rewrite (unchecked_un n L rnd E dbg cf d i f o H Hi); [reflexivity|].
  rewrite Hf. apply named_alike; assumption.
Qed.
Lemma fun_at : forall i f o name xs w, nth_error (unchecked_funs (W := W) n L rnd) i = Some f -> fn_name f = lit name -> named o name = true -> map small (lit name) = lit name ->
  apply_function c' o xs w = fn_call f xs w.
Proof using H Hs.
  intros i f o name xs w Hi Hf K Ks. unfold apply_function. destruct lookups as (-> & _ & _). rewrite (unchecked_fun n L rnd E dbg cf d i f o H Hi); [reflexivity|].
  rewrite Hf. apply named_alike; assumption.
Qed.

(** The computation gives what is said, and leaves the state. *)
Definition gives (m : M W V) (r : res Q) : Prop := forall w, exists z, m w = (z, w) /\ equals val z r.
Notation worth := (Forall2 (fun v q => val v == q)).

Lemma operation_said : forall o x y p q r, val x == p -> val y == q -> q_operation eq_ o p q = Some r -> gives (apply_binary c' o x y) r.
Proof using Hn H Hs.
  intros o x y p q r X Y. unfold q_operation.
  destruct (named o "+") eqn:K1. { intros K w. injection K as <-. rewrite (bin_at 0 (u_add n) o "+" x y w eq_refl eq_refl K1 eq_refl). destruct (add_exact n val eq_ Hn x y p q X Y) as (z & Z & Z'). exists (Ok z). cbn. unfold lift. rewrite Z. auto. }
  destruct (named o "-") eqn:K2. { intros K w. injection K as <-. rewrite (bin_at 1 (u_sub n) o "-" x y w eq_refl eq_refl K2 eq_refl). destruct (sub_exact n val eq_ Hn x y p q X Y) as (z & Z & Z'). exists (Ok z). cbn. unfold lift. rewrite Z. auto. }
  destruct (named o "*") eqn:K3. { intros K w. injection K as <-. rewrite (bin_at 2 (u_mul n) o "*" x y w eq_refl eq_refl K3 eq_refl). destruct (mul_exact n val eq_ Hn x y p q X Y) as (z & Z & Z'). exists (Ok z). cbn. unfold lift. rewrite Z. auto. }
  destruct (named o "/") eqn:K4.
  { unfold quotient. intros K w. rewrite (bin_at 3 (u_div n) o "/" x y w eq_refl eq_refl K4 eq_refl). cbn [u_div binop bf_call]. destruct (Qeq_bool q 0) eqn:Q0.
    - injection K as <-. apply Qeq_bool_iff in Q0. assert (Z : n_is_zero n y = true) by (apply (x_is_zero _ _ _ Hn); rewrite Y; exact Q0). rewrite Z. exists (Err DivisionByZero). split; reflexivity.
    - assert (Z : n_is_zero n y = false). { destruct (n_is_zero n y) eqn:Z; [|reflexivity]. apply (x_is_zero _ _ _ Hn) in Z. rewrite Y in Z. apply Qeq_bool_iff in Z. congruence. }
      rewrite Z. destruct (eq_ p q) eqn:G; [|discriminate]. injection K as <-. destruct (x_div _ _ _ Hn x y p q X Y G) as (z & -> & Z'). exists (Ok z). split; [reflexivity|exact Z']. }
  destruct (named o "mod") eqn:K5; [|discriminate].
  intros K w. rewrite (bin_at 5 (u_mod n) o "mod" x y w eq_refl eq_refl K5 eq_refl). cbn [u_mod binop bf_call]. destruct (Qeq_bool q 0) eqn:Q0; [|discriminate].
  injection K as <-. apply Qeq_bool_iff in Q0. assert (Z : n_is_zero n y = true) by (apply (x_is_zero _ _ _ Hn); rewrite Y; exact Q0). rewrite Z. exists (Err DivisionByZero). split; reflexivity.
Qed.

Lemma call_said : forall f vs qs r, worth vs qs -> q_call eq_ f qs = Some r -> gives (apply_function c' f vs) r.
Proof using Hn H Hs.
  intros f vs qs r X. unfold q_call.
  destruct (named f "sum") eqn:K1.
  { intros K w. rewrite (fun_at 0 (u_sum n) f "sum" vs w eq_refl eq_refl K1 eq_refl). cbn [u_sum fun_ fn_call]. unfold lift. destruct X as [|v q vs qs A X].
    - injection K as <-. exists (Err InvalidArgumentCount). split; reflexivity.
    - injection K as <-. cbn [fold_args]. destruct (fold_exact val (n_add n) Qplus (add_exact n val eq_ Hn) vs qs v q X A) as (z & -> & Z). exists (Ok z). split; [reflexivity|exact Z]. }
  destruct (named f "product") eqn:K2.
  { intros K w. rewrite (fun_at 2 (u_prod n) f "product" vs w eq_refl eq_refl K2 eq_refl). cbn [u_prod fun_ fn_call]. unfold lift. destruct X as [|v q vs qs A X].
    - injection K as <-. exists (Err InvalidArgumentCount). split; reflexivity.
    - injection K as <-. cbn [fold_args]. destruct (fold_exact val (n_mul n) Qmult (mul_exact n val eq_ Hn) vs qs v q X A) as (z & -> & Z). exists (Ok z). split; [reflexivity|exact Z]. }
  destruct (named f "avg") eqn:K3.
  { intros K w. rewrite (fun_at 1 (u_avg n) f "avg" vs w eq_refl eq_refl K3 eq_refl). cbn [u_avg fun_ fn_call]. unfold lift. destruct X as [|v q vs qs A X].
    - injection K as <-. exists (Err InvalidArgumentCount). split; reflexivity.
    - cbn [fold_args]. destruct (fold_exact val (n_add n) Qplus (add_exact n val eq_ Hn) vs qs v q X A) as (z & -> & Z). cbn [rbind].
      destruct (x_usize _ _ _ Hn (List.length (v :: vs))) as (k & -> & Z'). assert (Ln : List.length vs = List.length qs) by (clear - X; induction X; cbn; congruence). replace (List.length (v :: vs)) with (List.length (q :: qs)) in Z' by (cbn; congruence).
      destruct (eq_ _ _) eqn:G; [|discriminate]. injection K as <-. destruct (x_div _ _ _ Hn z k _ _ Z Z' G) as (y & -> & Y). exists (Ok y). split; [reflexivity|exact Y]. }
  destruct (named f "max") eqn:K4.
  { intros K w. rewrite (fun_at 3 (op_max n) f "max" vs w eq_refl eq_refl K4 eq_refl). cbn [op_max fun_ fn_call]. unfold lift. destruct X as [|v q vs qs A X]; [|destruct X as [|v' q' vs qs A' X]]; injection K as <-; cbn [List.length Nat.leb].
    1, 2: exists (Err InvalidArgumentCount); split; reflexivity.
    destruct (best_exact val (n_gt n) Qmax (max_exact n val eq_ Hn) (v' :: vs) (q' :: qs) v q ltac:(constructor; assumption) A) as (z & Z1 & Z2). cbn [best] in Z1 |- *. rewrite Z1. exists (Ok z). split; [reflexivity|exact Z2]. }
  destruct (named f "min") eqn:K5; [|discriminate].
  { intros K w. rewrite (fun_at 4 (op_min n) f "min" vs w eq_refl eq_refl K5 eq_refl). cbn [op_min fun_ fn_call]. unfold lift. destruct X as [|v q vs qs A X]; [|destruct X as [|v' q' vs qs A' X]]; injection K as <-; cbn [List.length Nat.leb].
    1, 2: exists (Err InvalidArgumentCount); split; reflexivity.
    destruct (best_exact val (n_lt n) Qmin (min_exact n val eq_ Hn) (v' :: vs) (q' :: qs) v q ltac:(constructor; assumption) A) as (z & Z1 & Z2). cbn [best] in Z1 |- *. rewrite Z1. exists (Ok z). split; [reflexivity|exact Z2]. }
Qed.

Lemma gives_next : forall (m : M W V) (o : option (res Q)) (f : V -> M W V) (g : Q -> option (res Q)) r,
  next o g = Some r -> (forall s, o = Some s -> gives m s) -> (forall v q s, val v == q -> g q = Some s -> gives (f v) s) -> gives (bind m f) r.
Proof using.
  clear. intros m o f g r Hr Hm Hf w. destruct o as [s|]; [|discriminate]. destruct (Hm s eq_refl w) as (z & Z & Y). unfold bind. rewrite Z.
  destruct s as [q|k|]; destruct z as [v|k'|]; cbn [equals] in Y; try contradiction; cbn [next] in Hr.
  - apply (Hf v q r Y Hr).
  - injection Hr as <-. subst k'. exists (Err k). split; reflexivity.
Qed.
Lemma gives_all : forall es, Forall (fun e => forall r, rational val eq_ vars e = Some r -> gives (denote c' e) r) es ->
  forall s, q_collect (map (rational val eq_ vars) es) = Some s -> forall w, exists z, sequence (map (denote c') es) w = (z, w) /\
    match z, s with Ok vs, Ok qs => worth vs qs | Err k, Err k' => k = k' | _, _ => False end.
Proof using.
  clear. intros es He. induction He as [|e es A _ IH]; intros s Hs w; cbn [map q_collect sequence] in *.
  - injection Hs as <-. exists (Ok []). split; [reflexivity|constructor].
  - destruct (rational val eq_ vars e) as [r|]; [|discriminate]. destruct (A r eq_refl w) as (z & Z & Y). unfold bind at 1. rewrite Z.
    destruct r as [q|k|]; destruct z as [v|k'|]; cbn [equals] in Y; try contradiction; cbn [next] in Hs; [|injection Hs as <-; subst k'; exists (Err k); split; reflexivity].
    destruct (q_collect (map (rational val eq_ vars) es)) as [s'|]; [|discriminate]. destruct (IH s' eq_refl w) as (zs & Z2 & Y2). unfold bind. rewrite Z2.
    destruct s' as [qs|k|]; destruct zs as [vs|k'|]; try contradiction; cbn [next] in Hs; injection Hs as <-.
    + exists (Ok (v :: vs)). split; [reflexivity|constructor; assumption].
    + subst k'. exists (Err k). split; reflexivity.
Qed.

Lemma rational_said : forall e r, rational val eq_ vars e = Some r -> gives (denote c' e) r.
Proof using Hn H Hs Hv.
  refine (expr_ind' _ (fun e => forall r, rational val eq_ vars e = Some r -> gives (denote c' e) r) _ _ _ _ _ _ _ _ _); cbn [rational denote].
  - intros v r K w. injection K as <-. exists (Ok v). split; reflexivity.
  - intros x r K w. pose proof (Hv x) as X. destruct (get_variable c' x) as [v|]; destruct (vars x) as [q|]; try contradiction; injection K as <-.
    + exists (Ok v). split; [reflexivity|exact X].
    + exists (Err InvalidInput). split; reflexivity.
  - discriminate.
  - intros g e IH r K. exact (IH r K).
  - intros f g args IH r K w. destruct (q_collect (map (rational val eq_ vars) args)) as [s|] eqn:C; [|discriminate].
    destruct (gives_all args IH s C w) as (z & Z & Y). unfold bind. rewrite Z. destruct s as [qs|k|]; destruct z as [vs|k'|]; try contradiction; cbn [next] in K.
    + exact (call_said f vs qs r Y K w).
    + injection K as <-. subst k'. exists (Err k). split; reflexivity.
  - intros u e IH r. destruct (named u "+") eqn:K1; [|destruct (named u "-") eqn:K2; [|discriminate]]; cbn [orb]; intros K; apply (gives_next _ _ _ _ _ K IH); clear K IH; intros v q s Y K w; unfold q_sign in K; injection K as <-.
    + rewrite (un_at 0 op_plus u "+" v w eq_refl eq_refl K1 eq_refl). rewrite (named_other u "+" "-" K1 eq_refl). exists (Ok v). split; [reflexivity|exact Y].
    + rewrite (un_at 1 (u_neg n) u "-" v w eq_refl eq_refl K2 eq_refl), K2. destruct (x_neg _ _ _ Hn v) as (z & Z & Z'). exists (Ok z). split; [cbn; unfold lift; rewrite Z; reflexivity|]. cbn. rewrite Z', Y. reflexivity.
  - intros e u IH r. destruct (named u "!") eqn:K1; [|discriminate]. intros K; apply (gives_next _ _ _ _ _ K IH); clear K IH; intros v q s Y K w.
    rewrite (un_at 2 (op_factorial n L) u "!" v w eq_refl eq_refl K1 eq_refl). cbn [op_factorial unop uf_call]. unfold lift.
    eexists. split; [reflexivity|]. exact (factorial_said n L val eq_ Hn v q s Y K).
  - intros o l r IHl IHr s K. apply (gives_next _ _ _ _ _ K IHl). intros v q s' Y K'. apply (gives_next _ _ _ _ _ K' IHr). intros v' q' s2 Y' K2. exact (operation_said o v v' q q' s2 Y Y' K2).
  - intros l r IHl IHr s K. apply (gives_next _ _ _ _ _ K IHl). intros v q s' Y K'. apply (gives_next _ _ _ _ _ K' IHr). intros v' q' s2 Y' K2.
    apply (operation_said times v v' q q' s2 Y Y'). exact K2.
Qed.
End Values.

(** The text of an expression evaluates, in the unchecked context over a number type that computes exactly, to a number of exactly the
    value that arithmetic on rationals gives it, or fails with the error that it says. *)
Theorem C91_text : forall V W (n : num V) val exact_quotient, exact_num n val exact_quotient ->
  forall L (rnd : W -> f64 * W) E dbg cf d d', unchecked_context n L rnd E dbg cf = Ok d -> same_but_variables d d' ->
  forall vars, (forall x, match get_variable (to_ctx E d') x, vars x with Some v, Some q => val v == q | None, None => True | _, _ => False end) ->
  forall parse e s r w, wf (to_ctx E d') e -> text_of (to_ctx E d') parse e s -> rational val exact_quotient vars e = Some r ->
  exists z, eval (to_ctx E d') parse dsplitter dbg s w = (z, w) /\ equals val z r.
Proof.
  intros V W n val eq_ Hn L rnd E dbg cf d d' H Hs vars Hv parse e s r w Hwf Ht Hr.
  rewrite (C16_eval_text _ _ _ parse dbg e s w Hwf Ht). exact (rational_said n L rnd E dbg cf d d' val eq_ Hn H Hs vars Hv e r Hr w).
Qed.
Print Assumptions C91_text.

(** The numeral of [k] with a [!] after it, as in [100!], evaluates to [k!], whatever its size. *)
Theorem C91_factorial_text : forall V W (n : num V) val exact_quotient, exact_num n val exact_quotient ->
  forall L (rnd : W -> f64 * W) E dbg cf d, unchecked_context n L rnd E dbg cf = Ok d ->
  forall parse, parse (lit "!") = None -> forall s k v w, s <> [] -> digits 10 s k -> parse s = Some v -> val v == inject_Z k ->
  exists z, eval (to_ctx E d) parse dsplitter dbg (s ++ lit "!") w = (Ok z, w) /\ val z == inject_Z (fact (Z.to_nat k)).
Proof.
  intros V W n val eq_ Hn L rnd E dbg cf d H parse Hp s k v w Hne Hd Hv Hk.
  assert (Ds : Forall digit s /\ (0 <= k)%Z).
  { clear - Hd. induction Hd as [|s v d c Hd [IH1 IH2] D C]; [split; [constructor|lia]|]. split; [|lia]. apply Forall_app. split; [exact IH1|]. constructor; [unfold digit; lia|constructor]. }
  destruct Ds as [Ds K0].
  assert (U : get_unary (to_ctx E d) (lit "!") = Some (op_factorial n L)) by (apply (unchecked_un n L rnd E dbg cf d 2 (op_factorial n L) (lit "!") H eq_refl); apply alike_refl).
  assert (A : get_variable (to_ctx E d) (lit "!") = None /\ get_constant (to_ctx E d) (lit "!") = None /\ get_function (to_ctx E d) (lit "!") = None /\ get_binary (to_ctx E d) (lit "!") = None).
  { apply unchecked_inv in H. destruct H as (p & e & _ & _ & ->). split; [reflexivity|]. split.
    - cbn [to_ctx get_constant ctx_of d_consts]. apply mget_none. repeat constructor; cbn [fst]; rewrite km_low; reflexivity.
    - split; [cbn [to_ctx get_function ctx_of d_funs]|cbn [to_ctx get_binary ctx_of d_binary]]; apply absent_none; vm_compute; reflexivity. }
  destruct A as (A1 & A2 & A3 & A4).
  destruct (C91_text V W n val eq_ Hn L rnd E dbg cf d d H ltac:(repeat split) (fun x => option_map val (get_variable (to_ctx E d) x))
    ltac:(intros x; cbv beta; destruct (get_variable (to_ctx E d) x); cbn [option_map]; [apply Qeq_refl|exact I]) parse (EPost (ENum v) (lit "!")) (s ++ lit "!") (Ok (inject_Z (fact (Z.to_nat k)))) w) as (z & Z1 & Z2).
  - cbn [wf]. split; [exact I|]. split; [|reflexivity]. exists (op_factorial n L). split; [exact U|reflexivity].
  - exists [s; lit "!"]. split; [|split; [|split]].
    + apply lexes_number; [left; split; assumption|cbn; unfold digit, point; lia|]. change (lit "!") with (lit "!" ++ []) at 1. apply lexes_operator; [|exact I|constructor].
      split; [discriminate|]. split; [constructor; [cbn; tauto|constructor]|]. intros c t X. injection X as <- <-. unfold letter. lia.
    + constructor; [exact Hv|constructor; [|constructor]]. cbn [spells]. split; [reflexivity|]. split; [unfold operator_only, variable, constant, function; rewrite A1, A2, A3; tauto|].
      split; [right; split; [discriminate|split; [constructor; [cbn; tauto|constructor]|]]; intros c t X; injection X as <- <-; unfold letter; lia|].
      intros _. exists 33%N, []. split; [reflexivity|]. unfold unary, binary. change [33%N] with (lit "!"). rewrite U, A4. split; [discriminate|tauto].
    + cbn [readable]. auto.
    + intros _ [X|[X|[]]]; [|discriminate]. subst s. inversion Ds as [|? ? D _]. unfold digit in D. lia.
  - cbn [rational]. change (named (lit "!") "!") with true. cbn [next said]. unfold q_factorial.
    assert (R : Qred (val v) = inject_Z k). { rewrite (Qred_complete _ _ Hk). apply Qred_identity. cbn. apply Z.gcd_1_r. }
    rewrite R. cbn [Qden inject_Z Qnum Pos.eqb]. replace (Qle_bool 0 (val v)) with true; [reflexivity|]. symmetry. apply Qle_bool_iff. rewrite Hk. unfold Qle. cbn. lia.
  - destruct z as [z| |]; cbn [equals] in Z2; try contradiction. exists z. split; [exact Z1|exact Z2].
Qed.
Print Assumptions C91_factorial_text.

(** ** A type that is exact: the rationals themselves, with fractions kept in lowest terms *)
Definition q_num : num Q := Num
  0 1 (fun x => Qeq_bool x 0) (fun x => Qeq_bool x 1) (fun x y => Some (x ?= y))
  (fun x y => Ok (Qred (x + y))) (fun x y => Ok (Qred (x - y))) (fun x y => Ok (Qred (x * y))) (fun x y => if Qeq_bool y 0 then Panic else Ok (Qred (x / y)))
  (fun _ _ => Panic) (fun x => Ok (Qred (- x)))
  (fun _ _ => None) (fun _ _ => None) (fun _ _ => None) (fun _ _ => None) (fun _ _ => None) (fun _ => None)
  (fun _ => None) (fun x => option_map inject_Z (f_trunc_Z x)) (fun k => Some (inject_Z (Z.of_nat k)))
  (fun x => Z.to_nat (Qnum x / Zpos (Qden x))).
Example C91_rationals : exact_num q_num (fun q => q) (fun _ q => negb (Qeq_bool q 0)).
Proof.
  constructor; cbn [q_num n_zero n_one n_is_zero n_is_one n_cmp n_add n_sub n_mul n_neg n_div n_from_usize n_fuel].
  - reflexivity.
  - reflexivity.
  - intros x. apply Qeq_bool_iff.
  - intros x. apply Qeq_bool_iff.
  - reflexivity.
  - intros x y. exists (Qred (x + y)). split; [reflexivity|apply Qred_correct].
  - intros x y. exists (Qred (x - y)). split; [reflexivity|apply Qred_correct].
  - intros x y. exists (Qred (x * y)). split; [reflexivity|apply Qred_correct].
  - intros x. exists (Qred (- x)). split; [reflexivity|apply Qred_correct].
  - intros x y p q X Y G. exists (Qred (x / y)). assert (Z : Qeq_bool y 0 = false). { destruct (Qeq_bool y 0) eqn:Z; [|reflexivity]. apply Qeq_bool_iff in Z. rewrite Y in Z. apply Qeq_bool_iff in Z. rewrite Z in G. discriminate. }
    rewrite Z. split; [reflexivity|]. rewrite Qred_correct, X, Y. reflexivity.
  - intros k. eexists. split; reflexivity.
  - intros [a b] k Hx. unfold Qeq in Hx. cbn in Hx |- *. assert (a = k * Zpos b)%Z by lia. subst a. rewrite Z.div_mul by discriminate. lia.
Qed.
(** The text [2(x - 1/3)! / max(x, 7) - sum(1, avg(1, 2), -x)] with [x = 16/3] is worth [2 * 120 / 7 - (1 + 3/2 - 16/3)]; and [(1/2 - x)!] fails. *)
Definition q_d : dctx Q unit := unres (unchecked_context q_num no_libm no_random std_env true implicit_config) implicit_config.
Definition q_d' : dctx Q unit := snd (set_variable std_env true (lit "x") (16 # 3) q_d).
Definition q_read (s : str) : option Q := option_map inject_Z (parse_int i128 s).
Definition q_vars (x : str) : option Q := if eq_ignore_case std_env (lit "x") x then Some (16 # 3) else None.
Definition same_q (x y : Q) : bool := (Qnum x =? Qnum y)%Z && Pos.eqb (Qden x) (Qden y).
Lemma same_q_ok : forall x y, same_q x y = true -> x = y.
Proof. intros [a b] [a' b'] X. unfold same_q in X. cbn in X. apply andb_true_iff in X. destruct X as [X Y]. apply Z.eqb_eq in X. apply Pos.eqb_eq in Y. subst. reflexivity. Qed.
Definition q_tree : expr Q :=
  EBin (lit "-") (EBin (lit "/") (EMul (ENum 2) (EPost (EGroup Parenthesis (EBin (lit "-") (EVar (lit "x")) (EBin (lit "/") (ENum 1) (ENum 3)))) (lit "!")))
      (ECall (lit "max") Parenthesis [EVar (lit "x"); ENum 7]))
    (ECall (lit "sum") Parenthesis [ENum 1; ECall (lit "avg") Parenthesis [ENum 1; ENum 2]; EPre (lit "-") (EVar (lit "x"))]).
Definition q_text : str := lit "2(x - 1/3)! / max(x, 7) - sum(1, avg(1, 2), -x)".
Definition q_bad : expr Q := EPost (EGroup Parenthesis (EBin (lit "-") (EBin (lit "/") (ENum 1) (ENum 2)) (EVar (lit "x")))) (lit "!").
Example C91_case :
  unchecked_context q_num no_libm no_random std_env true implicit_config = Ok q_d /\ same_but_variables q_d q_d' /\
  wf (to_ctx std_env q_d') q_tree /\ text_of (to_ctx std_env q_d') q_read q_tree q_text /\
  rational (fun q => q) (fun _ q => negb (Qeq_bool q 0)) q_vars q_tree <> None /\
  match rational (fun q => q) (fun _ q => negb (Qeq_bool q 0)) q_vars q_tree with Some (Ok q) => q == (1559 # 42) | _ => False end /\
  match fst (eval (to_ctx std_env q_d') q_read dsplitter true q_text tt) with Ok q => q == (1559 # 42) | _ => False end /\
  rational (fun q => q) (fun _ q => negb (Qeq_bool q 0)) q_vars q_bad = Some (Err NegativeValue) /\
  fst (eval (to_ctx std_env q_d') q_read dsplitter true (lit "(1/2 - x)!") tt) = Err NegativeValue /\
  fst (eval (to_ctx std_env q_d') q_read dsplitter true (lit "30!") tt) = Ok (inject_Z (fact 30)).
Proof.
  split. { unfold q_d. destruct (unchecked_context q_num no_libm no_random std_env true implicit_config) eqn:K; [reflexivity|..]; exfalso;
    assert (B : match unchecked_context q_num no_libm no_random std_env true implicit_config with Ok _ => true | _ => false end = true) by (vm_compute; reflexivity); rewrite K in B; discriminate B. }
  split; [repeat split; vm_compute; reflexivity|].
  split; [apply wfb_sound; vm_compute; reflexivity|]. split; [apply (text_sound same_q same_q_ok); vm_compute; reflexivity|]. split; [vm_compute; discriminate|].
  split; [vm_compute; reflexivity|]. split; [vm_compute; reflexivity|]. split; [vm_compute; reflexivity|]. split; vm_compute; reflexivity.
Qed.
