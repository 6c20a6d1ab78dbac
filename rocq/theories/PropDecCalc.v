(** * C96: the decimal context is a calculator of rationals *)
From Coq Require Import List NArith ZArith QArith Qabs Qround Qminmax Qreduction Qcanon Bool Arith Lia Lqa String.
From Verif Require Import ModelServer ModelBase ModelContext ModelEvaluator ModelText ModelDefault ModelFloat ModelNum ModelOps ModelSplit ModelTokenizer ModelParse ModelStd
  SpecExpr SpecText SpecOps SpecLex SpecParse SpecTokenizer SpecRepl SpecDecimal ProofText ProofDefault ProofBuild ProofCtx ProofDecimal ProofDecimal2 ProofDecRef ProofParse ProofSplit ProofIntText ProofTok2 ProofWf
  PropLex SpecCalculator ProofCalculator SpecExact SpecDecCalc.
From Verif Require PropExact PropOps PropComplex PropDecimal PropServer PropSource.
From Verif Require Import SpecServer ModelDecimal.
Import ListNotations.
Local Open Scope Q_scope.

(** ** What can be written down *)
Lemma writable_ok : forall q, writable q = true -> representable q.
Proof.
  intros q H. unfold writable in H. apply existsb_exists in H. destruct H as (s & Hs & H). apply in_seq in Hs. cbv zeta in H. apply andb_true_iff in H. destruct H as [A B].
  apply Z.eqb_eq in A. apply Z.ltb_lt in B. exists (Qnum q * 10 ^ Z.of_nat s / Zpos (Qden q))%Z, (Z.of_nat s). split; [lia|]. split; [exact B|].
  rewrite frac_mul. apply frac_eq. pose proof (Z.div_mod (Qnum q * 10 ^ Z.of_nat s) (Zpos (Qden q)) ltac:(discriminate)) as X. rewrite A in X. lia.
Qed.
Lemma whole_ok : forall q z, whole q = Some z -> q == inject_Z z.
Proof.
  intros q z H. unfold whole in H. destruct (Pos.eqb_spec (Qden (Qred q)) 1) as [D|D]; [|discriminate]. injection H as <-.
  rewrite <- (Qred_correct q) at 1. destruct (Qred q) as [a b]. cbn in D |- *. subst b. reflexivity.
Qed.
Lemma whole_not : forall q, whole q = None -> forall z, ~ q == inject_Z z.
Proof.
  intros q H z X. unfold whole in H. rewrite (Qred_complete _ _ X) in H. rewrite (Qred_identity (inject_Z z)) in H by (cbn; apply Z.gcd_1_r). discriminate.
Qed.
Lemma whole_none : forall q, (forall z, ~ q == inject_Z z) -> whole q = None.
Proof. intros q H. destruct (whole q) as [z|] eqn:K; [|reflexivity]. exfalso. exact (H z (whole_ok q z K)). Qed.
Lemma Qeq_bool_no : forall p q, Qeq_bool p q = false -> ~ p == q.
Proof. intros p q H X. apply Qeq_bool_iff in X. congruence. Qed.
Lemma Qle_bool_no : forall p q, Qle_bool p q = false -> q < p.
Proof. intros p q H. apply Qnot_le_lt. intros X. apply Qle_bool_iff in X. congruence. Qed.

Section Ops.
Context {D : Type}.
Variables (L : dlib D) (value : D -> Q).
Hypothesis EX : exact_decimals L value.
Variable fuel : nat.
Notation agree := (agrees value).

Lemma fit_in_said : forall p q r s, computes value p r -> p == q -> fit_in q = Some s -> agree (or_over (opt r)) s.
Proof using.
  clear. intros p q r s C E H. unfold fit_in in H. destruct (writable q) eqn:W.
  - injection H as <-. apply writable_ok in W. destruct (computes_exact value _ _ C) as (z & -> & Z). { apply (rep_comp q); [symmetry; exact E|exact W]. }
    cbn. rewrite Z. exact E.
  - destruct (Qle_bool (inject_Z limit) (Qabs q)) eqn:O; [|discriminate]. injection H as <-. apply Qle_bool_iff in O. rewrite (computes_over value _ _ C); [reflexivity|]. rewrite E. exact O.
Qed.
Lemma fit_in_panics : forall p q (op : D -> D -> option D) x y s, computes value p (op x y) -> p == q -> panics (fit_in q) = Some s -> agree (panic_op op x y) s.
Proof using.
  clear. intros p q op x y s C E H. destruct (fit_in q) as [s'|] eqn:F; [|discriminate]. pose proof (fit_in_said p q _ s' C E F) as A. unfold panic_op.
  destruct (op x y) as [z|]; cbn in A; destruct s' as [q'|k|]; try contradiction; cbn in H; injection H as <-; [exact A|exact I].
Qed.

Lemma squarings : forall p n, squarings_fit p n = true -> forall j, (0 <= j <= above n)%Z -> representable (p ^ j).
Proof using.
  clear. intros p n H j Hj. unfold squarings_fit in H. rewrite forallb_forall in H. specialize (H (Z.to_nat j)). cbv beta in H. rewrite Z2Nat.id in H by lia.
  apply writable_ok. apply H. apply in_seq. lia.
Qed.
Lemma power_said : forall x e p q s, value x == p -> value e == q -> d_power p q = Some s -> agree (pow_of L fuel x e) s.
Proof using EX.
  intros x e p q s X Y H. unfold d_power in H. destruct (whole q) as [n|] eqn:Wq.
  - apply whole_ok in Wq. rewrite Wq in Y. destruct (Z.eqb_spec n 0) as [N0|N0].
    { injection H as <-. rewrite (proj1 (pow_0_1 L value EX fuel x e n Y) N0). apply (one_val L value EX). }
    destruct (Z.eqb_spec n 1) as [N1|N1]. { injection H as <-. rewrite (proj2 (pow_0_1 L value EX fuel x e n Y) N1). exact X. }
    destruct (Z.leb_spec (2 ^ 63) (Z.abs n)) as [N2|N2]. { injection H as <-. rewrite (pow_outside L value EX fuel x e n Y); [exact I|]. lia. }
    destruct (Z.ltb_spec n 0) as [N3|N3].
    { destruct (Qeq_bool p 0) eqn:P0.
      - injection H as <-. apply Qeq_bool_iff in P0. rewrite (pow_neg_zero L value EX fuel x e (- n)); [exact I|rewrite Z.opp_involutive; exact Y|lia|rewrite X; exact P0].
      - destruct (squarings_fit (1 / p) (- n)) eqn:Sq; [|discriminate]. injection H as <-. apply Qeq_bool_no in P0.
        destruct (pow_neg L value EX fuel x e (- n)) as (y & -> & Z); [rewrite Z.opp_involutive; exact Y|lia|rewrite X; exact P0| |].
        + intros j Hj. apply (rep_comp ((1 / p) ^ j)); [rewrite X; reflexivity|]. exact (squarings _ _ Sq j Hj).
        + cbn. rewrite Z, Z.opp_involutive, X. reflexivity. }
    assert (N4 : (2 <= n < 2 ^ 63)%Z) by lia. destruct (whole p) as [z|] eqn:Wp.
    + apply whole_ok in Wp. rewrite Wp in X. destruct (pow_int L value EX fuel x e z n X Y N4) as [A B]. fold (above n) in A, B. destruct (Z.ltb_spec (Z.abs z ^ above n) limit) as [G|G]; injection H as <-.
      * destruct (A G) as (y & -> & Z). exact Z.
      * rewrite (B G). reflexivity.
    + destruct (squarings_fit p n) eqn:Sq; [|discriminate]. injection H as <-. destruct (pow_exact L value EX fuel x e n Y N4) as (y & -> & Z).
      * intros j Hj. apply (rep_comp (p ^ j)); [rewrite X; reflexivity|]. exact (squarings _ _ Sq j Hj).
      * cbn. rewrite Z, X. reflexivity.
  - assert (N : forall z, ~ value e == inject_Z z). { intros z K. apply (whole_not q Wq z). rewrite <- Y. exact K. }
    destruct (pow_fraction L value EX fuel x e N) as (A & B & C). destruct (Qeq_bool p 0) eqn:P0.
    { injection H as <-. apply Qeq_bool_iff in P0. rewrite A by (rewrite X; exact P0). apply (one_val L value EX). }
    destruct (Qeq_bool p 1) eqn:P1. { injection H as <-. apply Qeq_bool_iff in P1. rewrite B by (rewrite X; exact P1). cbn. rewrite X. exact P1. }
    destruct (Qle_bool 0 p) eqn:P; [discriminate|]. injection H as <-. apply Qle_bool_no in P. rewrite C by (rewrite X; exact P). reflexivity.
Qed.
Lemma factorial_said : (64 <= fuel)%nat -> forall x q s, value x == q -> d_factorial q = Some s -> agree (fact_of L fuel x) s.
Proof using EX.
  intros Hf x q s X H. unfold d_factorial in H. destruct (Qle_bool 0 q) eqn:P.
  - apply Qle_bool_iff in P. destruct (whole q) as [n|] eqn:W; [|discriminate]. apply whole_ok in W. rewrite W in X, P. assert (N : (0 <= n)%Z) by (change 0 with (inject_Z 0) in P; rewrite <- Zle_Qle in P; exact P).
    destruct (Z.eqb_spec n 0) as [N0|N0]; [discriminate|]. destruct (Z.leb_spec n 2) as [N2|N2].
    { injection H as <-. rewrite (fact_one_two L value EX fuel x); [apply (one_val L value EX)|]. assert (K : n = 1%Z \/ n = 2%Z) by lia. destruct K as [-> | ->]; [left|right]; exact X. }
    assert (X' : value x == inject_Z (Z.of_nat (Z.to_nat n))) by (rewrite Z2Nat.id by exact N; exact X).
    destruct (fact_int L value EX fuel x (Z.to_nat n) X' ltac:(lia) Hf) as [A B]. destruct (Z.leb_spec n 27) as [N27|N27]; injection H as <-.
    + destruct (A ltac:(lia)) as (y & -> & Y). exact Y.
    + rewrite B by lia. reflexivity.
  - injection H as <-. apply Qle_bool_no in P. rewrite (fact_neg L value EX fuel x); [reflexivity|]. rewrite X. exact P.
Qed.

Notation worth := (Forall2 (fun v q => value v == q)).
Definition agrees_some (r : res (option D)) (s : res Q) : Prop :=
  match r, s with Ok (Some v), Ok q => value v == q | Err k, Err k' => k = k' | Panic, Panic => True | _, _ => False end.
Lemma total_said : forall (op : D -> D -> option D) (qop : Q -> Q -> Q), (forall x y, computes value (qop (value x) (value y)) (op x y)) ->
  (forall a b c d, a == b -> c == d -> qop a c == qop b d) ->
  forall vs qs, worth vs qs -> forall v q s, value v == q -> total qop q qs = Some s -> agrees_some (fold_args (panic_op op) (Some v) vs) s.
Proof using.
  clear. intros op qop Hop Hc vs qs H. induction H as [|v' q' vs qs A _ IH]; intros v q s X K; cbn [total fold_args] in *.
  - injection K as <-. exact X.
  - destruct (panics (fit_in (qop q q'))) as [s'|] eqn:F; [|discriminate]. pose proof (fit_in_panics _ _ op v v' s' (Hop v v') (Hc _ _ _ _ X A) F) as B.
    destruct (panic_op op v v') as [z|k|]; destruct s' as [z'|k'|]; cbn in B; try contradiction; cbn [next] in K.
    + exact (IH z z' s B K).
    + injection K as <-. exact B.
    + injection K as <-. exact I.
Qed.
Lemma nearest_said : forall x q s, value x == q -> nearest q = Some s -> agree (Ok (d_round L x)) s.
Proof using EX.
  intros x q s X H. unfold nearest in H. cbv zeta in H. destruct (Qeq_bool (q + (1 # 2)) (inject_Z (Qfloor (q + (1 # 2))))) eqn:T; [discriminate|]. injection H as <-. apply Qeq_bool_no in T.
  destruct (ed_round _ _ EX x) as (k & K1 & K2). cbn. rewrite K1. rewrite X in K2. apply Qabs_Qle_condition in K2. destruct K2 as [A B].
  pose proof (Qfloor_le (q + (1 # 2))) as F1. pose proof (Qlt_floor (q + (1 # 2))) as F2. set (j := Qfloor (q + (1 # 2))) in *. rewrite inject_Z_plus in F2. change (inject_Z 1) with 1 in F2.
  assert (F3 : inject_Z j < q + (1 # 2)). { apply Qle_lteq in F1. destruct F1 as [F1|F1]; [exact F1|]. exfalso. apply T. symmetry. exact F1. }
  assert (j < k + 1)%Z. { rewrite Zlt_Qlt, inject_Z_plus. change (inject_Z 1) with 1. lra. }
  assert (k < j + 1)%Z. { rewrite Zlt_Qlt, inject_Z_plus. change (inject_Z 1) with 1. lra. }
  replace k with j by lia. reflexivity.
Qed.
Lemma cmp_max : forall x a p q, value x == p -> value a == q -> value (if n_gt (dec_num L fuel) x a then x else a) == Qmax q p.
Proof using EX.
  intros x a p q X A. unfold n_gt. cbn [dec_num n_cmp]. rewrite (ed_compare _ _ EX). rewrite <- X, <- A. destruct (value x ?= value a) eqn:K.
  - apply Qeq_alt in K. symmetry. apply Q.max_l. rewrite K. apply Qle_refl.
  - apply Qlt_alt in K. symmetry. apply Q.max_l. apply Qlt_le_weak. exact K.
  - apply Qgt_alt in K. symmetry. apply Q.max_r. apply Qlt_le_weak. exact K.
Qed.
Lemma cmp_min : forall x a p q, value x == p -> value a == q -> value (if n_lt (dec_num L fuel) x a then x else a) == Qmin q p.
Proof using EX.
  intros x a p q X A. unfold n_lt. cbn [dec_num n_cmp]. rewrite (ed_compare _ _ EX). rewrite <- X, <- A. destruct (value x ?= value a) eqn:K.
  - apply Qeq_alt in K. symmetry. apply Q.min_l. rewrite K. apply Qle_refl.
  - apply Qlt_alt in K. symmetry. apply Q.min_r. apply Qlt_le_weak. exact K.
  - apply Qgt_alt in K. symmetry. apply Q.min_l. apply Qlt_le_weak. exact K.
Qed.
End Ops.

(** ** Expressions *)
Section Values.
Context {D W : Type}.
Variables (L : dlib D) (value : D -> Q) (fuel : nat) (rnd : W -> f64 * W) (E : env) (dbg : bool) (cf : config) (d d' : dctx D W).
Hypothesis EX : exact_decimals L value.
Hypothesis H : decimal_context L fuel rnd E dbg cf = Ok d.
Hypothesis Hf : (64 <= fuel)%nat.
Hypothesis Hs : same_but_variables d d'.
Notation c := (to_ctx E d).
Notation c' := (to_ctx E d').
Variable vars : str -> option Q.
Hypothesis Hv : forall x, match get_variable c' x, vars x with Some v, Some q => value v == q | None, None => True | _, _ => False end.

Lemma literal_said : forall z, (Z.abs z < limit)%Z -> value (d_lit L z 28) == z # 10000000000000000000000000000.
Proof using EX.
  clear - EX. intros z Hz. pose proof (ed_literal _ _ EX z 28%N Hz ltac:(lia)) as X. change (10 ^ Z.of_N 28)%Z with 10000000000000000000000000000%Z in X.
  apply (Qmult_inj_r _ _ (inject_Z 10000000000000000000000000000)); [discriminate|]. rewrite X. unfold Qeq. cbn [Qnum Qden inject_Z Qmult]. lia.
Qed.
Lemma lookups : get_function c' = get_function c /\ get_unary c' = get_unary c /\ get_binary c' = get_binary c /\ get_constant c' = get_constant c.
Proof using Hs. destruct Hs as (A1 & A2 & A3 & A4 & A5). cbn [to_ctx get_function get_unary get_binary get_constant]. rewrite ?A1, ?A2, ?A3, ?A4, ?A5. auto. Qed.
Lemma bin_at : forall i f o name x y w, nth_error (dec_bins (W := W) L fuel) i = Some f -> bf_name f = lit name -> named o name = true -> map small (lit name) = lit name ->
  apply_binary c' o x y w = bf_call f x y w.
Proof using H Hs.
  intros i f o name x y w Hi Hn K Ks. unfold apply_binary. destruct lookups as (_ & _ & -> & _). rewrite (dec_bin L fuel rnd E dbg cf d H i f o Hi); [reflexivity|].
  rewrite Hn. apply named_alike; assumption.
Qed.
Lemma un_at : forall i f o name x w, nth_error (dec_uns (W := W) L fuel) i = Some f -> uf_name f = lit name -> named o name = true -> map small (lit name) = lit name ->
  apply_unary c' o x w = uf_call f x w.
Proof using H Hs.
  intros i f o name x w Hi Hn K Ks. unfold apply_unary. destruct lookups as (_ & -> & _ & _). rewrite (dec_un L fuel rnd E dbg cf d H i f o Hi); [reflexivity|].
  rewrite Hn. apply named_alike; assumption.
Qed.
Lemma fun_at : forall i f o name xs w, nth_error (dec_funs (W := W) L fuel rnd) i = Some f -> fn_name f = lit name -> named o name = true -> map small (lit name) = lit name ->
  apply_function c' o xs w = fn_call f xs w.
Proof using H Hs.
  intros i f o name xs w Hi Hn K Ks. unfold apply_function. destruct lookups as (-> & _ & _ & _). rewrite (dec_fun L fuel rnd E dbg cf d H i f o Hi); [reflexivity|].
  rewrite Hn. apply named_alike; assumption.
Qed.
Lemma const_at : forall x, (named x "pi" = true -> get_constant c' x = Some (cPI L)) /\ (named x "e" = true -> get_constant c' x = Some (cE L)).
Proof using H Hs.
  intros x. destruct lookups as (_ & _ & _ & ->). rewrite (decimal_is L fuel rnd E dbg cf) in H. injection H as <-. cbn [to_ctx get_constant the_ctx ctx_of d_consts]. split; intros K.
  - change (mget (key_match E) [(lit "PI", cPI L); (lit "E", cE L)] x = Some (cPI L)). apply (mget_nth _ _ _ 0%nat (lit "PI")); [vm_compute; reflexivity|reflexivity|]. apply fold_alike. apply str_eqb_eq. exact K.
  - change (mget (key_match E) [(lit "PI", cPI L); (lit "E", cE L)] x = Some (cE L)). apply (mget_nth _ _ _ 1%nat (lit "E")); [vm_compute; reflexivity|reflexivity|]. apply fold_alike. apply str_eqb_eq. exact K.
Qed.

(** The computation gives what is said, and leaves the state. *)
Definition gives (m : M W D) (r : res Q) : Prop := forall w, exists z, m w = (z, w) /\ agrees value z r.
Notation worth := (Forall2 (fun v q => value v == q)).

Lemma operation_said : forall o x y p q r, value x == p -> value y == q -> d_operation o p q = Some r -> gives (apply_binary c' o x y) r.
Proof using EX H Hf Hs Hv.
  intros o x y p q r X Y. unfold d_operation.
  destruct (named o "+") eqn:K1. { intros K w. rewrite (bin_at 0 (x_add L) o "+" x y w eq_refl eq_refl K1 eq_refl). eexists. split; [reflexivity|]. apply (fit_in_said value _ _ _ r (ed_add _ _ EX x y)) in K; [exact K|]. rewrite X, Y. reflexivity. }
  destruct (named o "-") eqn:K2. { intros K w. rewrite (bin_at 1 (x_sub L) o "-" x y w eq_refl eq_refl K2 eq_refl). eexists. split; [reflexivity|]. apply (fit_in_said value _ _ _ r (ed_sub _ _ EX x y)) in K; [exact K|]. rewrite X, Y. reflexivity. }
  destruct (named o "*") eqn:K3. { intros K w. rewrite (bin_at 2 (x_mul L) o "*" x y w eq_refl eq_refl K3 eq_refl). eexists. split; [reflexivity|]. apply (fit_in_said value _ _ _ r (ed_mul _ _ EX x y)) in K; [exact K|]. rewrite X, Y. reflexivity. }
  destruct (named o "/") eqn:K4.
  { intros K w. rewrite (bin_at 3 (x_div L) o "/" x y w eq_refl eq_refl K4 eq_refl). eexists. split; [reflexivity|]. cbv beta. destruct (Qeq_bool q 0) eqn:Q0.
    - injection K as <-. apply Qeq_bool_iff in Q0. rewrite (ed_div_zero _ _ EX) by (rewrite Y; exact Q0). reflexivity.
    - apply Qeq_bool_no in Q0. apply (fit_in_said value _ _ _ r (ed_div _ _ EX x y ltac:(rewrite Y; exact Q0))) in K; [exact K|]. rewrite X, Y. reflexivity. }
  destruct (named o "mod") eqn:K5.
  { intros K w. rewrite (bin_at 5 (x_mod L) o "mod" x y w eq_refl eq_refl K5 eq_refl). eexists. split; [reflexivity|]. cbv beta. destruct (Qeq_bool q 0) eqn:Q0; injection K as <-.
    - apply Qeq_bool_iff in Q0. rewrite (ed_rem_zero _ _ EX) by (rewrite Y; exact Q0). reflexivity.
    - apply Qeq_bool_no in Q0. destruct (ed_rem _ _ EX x y ltac:(rewrite Y; exact Q0)) as (z & -> & Z). cbn. rewrite Z. rewrite (truncated_comp (value x / value y) (p / q)) by (rewrite X, Y; reflexivity). rewrite X, Y. reflexivity. }
  destruct (named o "^") eqn:K6; [|discriminate].
  intros K w. rewrite (bin_at 4 (x_pow L fuel) o "^" x y w eq_refl eq_refl K6 eq_refl). eexists. split; [reflexivity|]. exact (power_said L value EX fuel x y p q r X Y K).
Qed.

Lemma alone_said : forall name f (g : Q -> option (res Q)) vs qs r, worth vs qs -> alone g qs = Some r ->
  (forall v q s, value v == q -> g q = Some s -> agrees value (Ok (f v)) s) -> gives (fn_call (@fwd D W name f) vs) r.
Proof using.
  clear. intros name f g vs qs r X K Hg w. cbn [fwd fun_ fn_call]. unfold lift, one_arg. unfold alone in K. destruct X as [|v q vs qs A X]; [|destruct X as [|v' q' vs qs A' X]].
  - injection K as <-. eexists. split; reflexivity.
  - eexists. split; [reflexivity|]. exact (Hg v q r A K).
  - injection K as <-. eexists. split; reflexivity.
Qed.
Lemma qceil_comp : forall p q, p == q -> Qceiling p = Qceiling q. Proof. intros p q K. unfold Qceiling. f_equal. apply Qfloor_comp. rewrite K. reflexivity. Qed.

Lemma call_said : forall f vs qs r, worth vs qs -> d_call f qs = Some r -> gives (apply_function c' f vs) r.
Proof using EX H Hf Hs Hv.
  intros f vs qs r X. unfold d_call.
  assert (Cp : forall a b c d, a == b -> c == d -> a + c == b + d) by (intros ? ? ? ? A B; rewrite A, B; reflexivity).
  assert (Cm : forall a b c d, a == b -> c == d -> a * c == b * d) by (intros ? ? ? ? A B; rewrite A, B; reflexivity).
  destruct (named f "sum") eqn:K1.
  { intros K w. rewrite (fun_at 0 (x_sum L) f "sum" vs w eq_refl eq_refl K1 eq_refl). cbn [x_sum fun_ fn_call]. unfold lift. eexists. split; [reflexivity|]. destruct X as [|v q vs qs A X]; [injection K as <-; reflexivity|].
    cbn [fold_args]. pose proof (total_said value (d_cadd L) Qplus (ed_add _ _ EX) Cp vs qs X v q r A K) as T. destruct (fold_args (panic_op (d_cadd L)) (Some v) vs) as [[z|]| |]; destruct r; cbn in T; try contradiction; exact T. }
  destruct (named f "product") eqn:K2.
  { intros K w. rewrite (fun_at 2 (x_prod L) f "product" vs w eq_refl eq_refl K2 eq_refl). cbn [x_prod fun_ fn_call]. unfold lift. eexists. split; [reflexivity|]. destruct X as [|v q vs qs A X]; [injection K as <-; reflexivity|].
    cbn [fold_args]. pose proof (total_said value (d_cmul L) Qmult (ed_mul _ _ EX) Cm vs qs X v q r A K) as T. destruct (fold_args (panic_op (d_cmul L)) (Some v) vs) as [[z|]| |]; destruct r; cbn in T; try contradiction; exact T. }
  destruct (named f "avg") eqn:K3.
  { intros K w. rewrite (fun_at 1 (x_avg L) f "avg" vs w eq_refl eq_refl K3 eq_refl). cbn [x_avg fun_ fn_call]. unfold lift. eexists. split; [reflexivity|]. destruct X as [|v q vs qs A X]; [injection K as <-; reflexivity|].
    cbv zeta in K. destruct (Z.ltb_spec (Z.of_nat (List.length (q :: qs))) limit) as [Hl|Hl]; [|discriminate].
    cbn [fold_args]. destruct (total Qplus q qs) as [s|] eqn:T; [|discriminate]. apply (total_said value (d_cadd L) Qplus (ed_add _ _ EX) Cp vs qs X v q s A) in T.
    assert (Ln : List.length (v :: vs) = List.length (q :: qs)) by (cbn; f_equal; clear - X; induction X; cbn; congruence).
    destruct (fold_args (panic_op (d_cadd L)) (Some v) vs) as [[z|]|k|]; destruct s as [z'|k'|]; cbn in T; try contradiction; cbn [next] in K; cbn [rbind].
    - rewrite Ln. set (m := Z.of_nat (List.length (q :: qs))) in *. assert (M : value (int L m) == inject_Z m) by (apply (lit_val L value EX); lia).
      assert (M0 : ~ value (int L m) == 0). { rewrite M. change 0 with (inject_Z 0). rewrite inject_Z_injective. unfold m. cbn [List.length]. lia. }
      apply (fit_in_panics value _ _ (d_cdiv L) z (int L m) r (ed_div _ _ EX z _ M0)) in K; [exact K|]. rewrite T, M. reflexivity.
    - injection K as <-. exact T.
    - injection K as <-. exact I. }
  destruct (named f "max") eqn:K4.
  { intros K w. rewrite (fun_at 3 (op_max (dec_num L fuel)) f "max" vs w eq_refl eq_refl K4 eq_refl). cbn [op_max fun_ fn_call]. unfold lift. destruct X as [|v q vs qs A X]; [|destruct X as [|v' q' vs qs A' X]]; injection K as <-; cbn [List.length Nat.leb].
    1, 2: eexists; split; reflexivity.
    destruct (PropExact.best_exact value (n_gt (dec_num L fuel)) Qmax (cmp_max L value EX fuel) (v' :: vs) (q' :: qs) v q ltac:(constructor; assumption) A) as (z & Z1 & Z2). cbn [best] in Z1 |- *. rewrite Z1. exists (Ok z). split; [reflexivity|exact Z2]. }
  destruct (named f "min") eqn:K5.
  { intros K w. rewrite (fun_at 4 (op_min (dec_num L fuel)) f "min" vs w eq_refl eq_refl K5 eq_refl). cbn [op_min fun_ fn_call]. unfold lift. destruct X as [|v q vs qs A X]; [|destruct X as [|v' q' vs qs A' X]]; injection K as <-; cbn [List.length Nat.leb].
    1, 2: eexists; split; reflexivity.
    destruct (PropExact.best_exact value (n_lt (dec_num L fuel)) Qmin (cmp_min L value EX fuel) (v' :: vs) (q' :: qs) v q ltac:(constructor; assumption) A) as (z & Z1 & Z2). cbn [best] in Z1 |- *. rewrite Z1. exists (Ok z). split; [reflexivity|exact Z2]. }
  destruct (named f "ceil") eqn:K6.
  { intros K w. rewrite (fun_at 10 (fwd "ceil" (d_ceil L)) f "ceil" vs w eq_refl eq_refl K6 eq_refl). apply (alone_said "ceil" (d_ceil L) _ vs qs r X K). intros v q s A S. injection S as <-. cbn. rewrite (ed_ceil _ _ EX), (qceil_comp _ _ A). reflexivity. }
  destruct (named f "floor") eqn:K7.
  { intros K w. rewrite (fun_at 11 (fwd "floor" (d_floor L)) f "floor" vs w eq_refl eq_refl K7 eq_refl). apply (alone_said "floor" (d_floor L) _ vs qs r X K). intros v q s A S. injection S as <-. cbn. rewrite (ed_floor _ _ EX), (Qfloor_comp _ _ A). reflexivity. }
  destruct (named f "truncate") eqn:K8.
  { intros K w. rewrite (fun_at 12 (fwd "truncate" (d_trunc L)) f "truncate" vs w eq_refl eq_refl K8 eq_refl). apply (alone_said "truncate" (d_trunc L) _ vs qs r X K). intros v q s A S. injection S as <-. cbn. rewrite (ed_trunc _ _ EX), (truncated_comp _ _ A). reflexivity. }
  destruct (named f "round") eqn:K9; [|discriminate].
  intros K w. rewrite (fun_at 13 (fwd "round" (d_round L)) f "round" vs w eq_refl eq_refl K9 eq_refl). apply (alone_said "round" (d_round L) _ vs qs r X K). intros v q s A S. exact (nearest_said L value EX v q s A S).
Qed.

Lemma gives_next : forall (m : M W D) (o : option (res Q)) (f : D -> M W D) (g : Q -> option (res Q)) r,
  next o g = Some r -> (forall s, o = Some s -> gives m s) -> (forall v q s, value v == q -> g q = Some s -> gives (f v) s) -> gives (bind m f) r.
Proof using.
  clear. intros m o f g r Hr Hm Hg w. destruct o as [s|]; [|discriminate]. destruct (Hm s eq_refl w) as (z & Z & Y). unfold bind. rewrite Z.
  destruct s as [q|k|]; destruct z as [v|k'|]; cbn [agrees] in Y; try contradiction; cbn [next] in Hr.
  - apply (Hg v q r Y Hr).
  - injection Hr as <-. subst k'. exists (Err k). split; reflexivity.
  - injection Hr as <-. exists Panic. split; [reflexivity|exact I].
Qed.
Lemma gives_all : forall es, Forall (fun e => forall r, decimal value vars e = Some r -> gives (denote c' e) r) es ->
  forall s, q_collect (map (decimal value vars) es) = Some s -> forall w, exists z, sequence (map (denote c') es) w = (z, w) /\
    match z, s with Ok vs, Ok qs => worth vs qs | Err k, Err k' => k = k' | Panic, Panic => True | _, _ => False end.
Proof using.
  clear. intros es He. induction He as [|e es A _ IH]; intros s Hs w; cbn [map q_collect sequence] in *.
  - injection Hs as <-. exists (Ok []). split; [reflexivity|constructor].
  - destruct (decimal value vars e) as [r|]; [|discriminate]. destruct (A r eq_refl w) as (z & Z & Y). unfold bind at 1. rewrite Z.
    destruct r as [q|k|]; destruct z as [v|k'|]; cbn [agrees] in Y; try contradiction; cbn [next] in Hs;
      [|injection Hs as <-; subst k'; exists (Err k); split; reflexivity|injection Hs as <-; exists Panic; split; [reflexivity|exact I]].
    destruct (q_collect (map (decimal value vars) es)) as [s'|]; [|discriminate]. destruct (IH s' eq_refl w) as (zs & Z2 & Y2). unfold bind. rewrite Z2.
    destruct s' as [qs|k|]; destruct zs as [vs|k'|]; try contradiction; cbn [next] in Hs; injection Hs as <-.
    + exists (Ok (v :: vs)). split; [reflexivity|constructor; assumption].
    + subst k'. exists (Err k). split; reflexivity.
    + exists Panic. split; [reflexivity|exact I].
Qed.

Lemma decimal_said : forall e r, decimal value vars e = Some r -> gives (denote c' e) r.
Proof using EX H Hf Hs Hv.
  refine (expr_ind' _ (fun e => forall r, decimal value vars e = Some r -> gives (denote c' e) r) _ _ _ _ _ _ _ _ _); cbn [decimal denote].
  - intros v r K w. injection K as <-. exists (Ok v). split; reflexivity.
  - intros x r K w. pose proof (Hv x) as X. destruct (get_variable c' x) as [v|]; destruct (vars x) as [q|]; try contradiction; injection K as <-.
    + exists (Ok v). split; [reflexivity|exact X].
    + exists (Err InvalidInput). split; reflexivity.
  - intros x r K w. destruct (const_at x) as [A B]. destruct (named x "pi") eqn:K1; [|destruct (named x "e") eqn:K2; [|discriminate]]; apply (f_equal (fun o => match o with Some y => y | None => Panic end)) in K; cbn [said] in K; subst r.
    + rewrite A by reflexivity. exists (Ok (cPI L)). split; [reflexivity|]. cbn [agrees]. apply literal_said; reflexivity.
    + rewrite B by reflexivity. exists (Ok (cE L)). split; [reflexivity|]. cbn [agrees]. apply literal_said; reflexivity.
  - intros g e IH r K. exact (IH r K).
  - intros f g args IH r K w. destruct (q_collect (map (decimal value vars) args)) as [s|] eqn:C; [|discriminate].
    destruct (gives_all args IH s C w) as (z & Z & Y). unfold bind. rewrite Z. destruct s as [qs|k|]; destruct z as [vs|k'|]; try contradiction; cbn [next] in K.
    + exact (call_said f vs qs r Y K w).
    + injection K as <-. subst k'. exists (Err k). split; reflexivity.
    + injection K as <-. exists Panic. split; [reflexivity|exact I].
  - intros u e IH r. destruct (named u "+") eqn:K1; [|destruct (named u "-") eqn:K2; [|discriminate]]; cbn [orb]; intros K; apply (gives_next _ _ _ _ _ K IH); clear K IH; intros v q s Y K w; unfold q_sign in K; injection K as <-.
    + rewrite (un_at 0 op_plus u "+" v w eq_refl eq_refl K1 eq_refl). rewrite (named_other u "+" "-" K1 eq_refl). exists (Ok v). split; [reflexivity|exact Y].
    + rewrite (un_at 1 (x_neg L) u "-" v w eq_refl eq_refl K2 eq_refl), K2. eexists. split; [reflexivity|]. cbn. rewrite (ed_neg _ _ EX), Y. reflexivity.
  - intros e u IH r. destruct (named u "!") eqn:K1; [|discriminate]. intros K; apply (gives_next _ _ _ _ _ K IH); clear K IH; intros v q s Y K w.
    rewrite (un_at 2 (x_fact L fuel) u "!" v w eq_refl eq_refl K1 eq_refl). eexists. split; [reflexivity|]. exact (factorial_said L value EX fuel Hf v q s Y K).
  - intros o l r IHl IHr s K. apply (gives_next _ _ _ _ _ K IHl). intros v q s' Y K'. apply (gives_next _ _ _ _ _ K' IHr). intros v' q' s2 Y' K2. exact (operation_said o v v' q q' s2 Y Y' K2).
  - intros l r IHl IHr s K. apply (gives_next _ _ _ _ _ K IHl). intros v q s' Y K'. apply (gives_next _ _ _ _ _ K' IHr). intros v' q' s2 Y' K2.
    apply (operation_said times v v' q q' s2 Y Y'). exact K2.
Qed.
End Values.

(** The text of an expression evaluates in the decimal context to a number of exactly the value that the calculator of rationals gives
    it, fails with the error that it says, or panics where it says so. *)
Theorem C96_text : forall D W (L : dlib D) value, exact_decimals L value ->
  forall fuel (rnd : W -> f64 * W) E dbg cf d d', (64 <= fuel)%nat -> decimal_context L fuel rnd E dbg cf = Ok d -> same_but_variables d d' ->
  forall vars, (forall x, match get_variable (to_ctx E d') x, vars x with Some v, Some q => value v == q | None, None => True | _, _ => False end) ->
  forall parse e s r w, wf (to_ctx E d') e -> text_of (to_ctx E d') parse e s -> decimal value vars e = Some r ->
  exists z, eval (to_ctx E d') parse dsplitter dbg s w = (z, w) /\ agrees value z r.
Proof.
  intros D W L value EX fuel rnd E dbg cf d d' Hf H Hs vars Hv parse e s r w Hwf Ht Hr.
  rewrite (C16_eval_text _ _ _ parse dbg e s w Hwf Ht). exact (decimal_said L value fuel rnd E dbg cf d d' EX H Hf Hs vars Hv e r Hr w).
Qed.
Print Assumptions C96_text.

(** The same of the server: a request without a type, or of decimal type, is answered with that number, that error, or not at all. *)
Theorem C96_server : forall D W (sv : service D W) value E dbg q, exact_decimals (s_dlib sv) value -> (64 <= s_fuel sv)%nat ->
  q_type q = None \/ q_type q = Some NDecimal -> NoDup (map fst (given q)) ->
  exists d, decimals sv E dbg (server_settings NDecimal) = Ok d /\ (Forall (accepted sv E dbg (s_read_decimal sv) d) (given q) -> forall w,
  exists d', with_variables sv E (s_read_decimal sv) d (given q) d' /\
  forall vars e r, (forall x, vars x = option_map value (get_variable (to_ctx E d') x)) ->
  wf (to_ctx E d') e -> text_of (to_ctx E d') (s_read_decimal sv) e (q_expression q) -> decimal value vars e = Some r ->
  exists z, eval_expression sv E dbg q w = answer_to (s_show_decimal sv) (z, w) /\ agrees value z r).
Proof.
  intros D W sv value E dbg q EX Hf Hq Nd. assert (Ha : asked q = NDecimal) by (unfold asked; destruct Hq as [-> | ->]; reflexivity).
  destruct (PropServer.C37_values D W sv E dbg q NDecimal D _ Ha (Serves_decimal sv E dbg) Nd) as (d & Hd & Hno & X). cbn [k_context k_read k_show k_parse k_rules decimal_kind] in *.
  exists d. split; [exact Hd|]. intros Ok_ w. destruct (X w) as [Y _]. destruct (Y Ok_) as (d' & Hd' & R). clear X Y.
  exists d'. split; [exact Hd'|]. intros vars e r Hv Hwf Ht Hr. rewrite R. change (split_into_tokens default_splitter) with dsplitter.
  destruct (C96_text D W (s_dlib sv) value EX (s_fuel sv) (s_random sv) E dbg _ d d' Hf Hd (proj1 Hd') vars) with (parse := s_read_decimal sv) (e := e) (s := q_expression q) (r := r) (w := w) as (z & -> & Z); try assumption.
  - intros x. rewrite Hv. destruct (get_variable (to_ctx E d') x); cbn [option_map]; [apply Qeq_refl|exact I].
  - exists z. split; [reflexivity|exact Z].
Qed.
Print Assumptions C96_server.

(** ** Cases *)
Definition same_dec (x y : dec) : bool := (coef x =? coef y)%Z && (scale x =? scale y)%Z.
Lemma same_dec_ok : forall x y, same_dec x y = true -> x = y.
Proof.
  intros [[a s] p] [[b t] q] X. unfold same_dec in X. cbn in X. apply andb_true_iff in X. destruct X as [X Y]. apply Z.eqb_eq in X. apply Z.eqb_eq in Y. subst b t. f_equal. apply Eqdep_dec.UIP_dec. apply bool_dec.
Qed.
(** The text [2(x + 0.5)^3 mod 1.7 - sum(1, AVG(1, 2), x) * round(Pi)] with [x = 2.5] is worth [54 mod 1.7 - 5 * 3]; [2^40] is exact while
    [2^64], which could be written down, overflows; so do [28!] and [1/0]; [2!] is [1]; and a sum out of range panics. *)
Definition dc_d' : dctx dec unit := snd (set_variable std_env true (lit "x") (mk0 25 1) PropDecimal.ref_d).
Definition dc_vars (x : str) : option Q := option_map val (get_variable (to_ctx std_env dc_d') x).
Definition nm (s : string) : expr dec := ENum (PropSource.read_dec (lit s)).
Definition dc_tree : expr dec :=
  EBin (lit "-") (EBin (lit "mod") (EMul (nm "2") (EBin (lit "^") (EGroup Parenthesis (EBin (lit "+") (EVar (lit "x")) (nm "0.5"))) (nm "3"))) (nm "1.7"))
    (EBin (lit "*") (ECall (lit "sum") Parenthesis [nm "1"; ECall (lit "AVG") Parenthesis [nm "1"; nm "2"]; EVar (lit "x")]) (ECall (lit "round") Parenthesis [EConst (lit "Pi")])).
Definition dc_text : str := lit "2(x + 0.5)^3 mod 1.7 - sum(1, AVG(1, 2), x) * round(Pi)".
Definition tells (e : expr dec) : option (res Q) := match decimal val dc_vars e with Some (Ok q) => Some (Ok (Qred q)) | r => r end.
Definition dc_evals (s : string) : res Q := PropDecimal.shown (eval (to_ctx std_env dc_d') PropSource.parse_dec dsplitter true (lit s) tt).
Example C96_case :
  exact_decimals ref_lib val /\ decimal_context ref_lib 200 no_random std_env true implicit_config = Ok PropDecimal.ref_d /\ same_but_variables PropDecimal.ref_d dc_d' /\
  wf (to_ctx std_env dc_d') dc_tree /\ text_of (to_ctx std_env dc_d') PropSource.parse_dec dc_tree dc_text /\
  dc_vars (lit "x") <> None /\ tells dc_tree = Some (Ok (- 137 # 10)) /\ PropDecimal.shown (eval (to_ctx std_env dc_d') PropSource.parse_dec dsplitter true dc_text tt) = Ok (- 137 # 10).
Proof.
  split; [apply ref_exact|]. split; [apply PropDecimal.ref_is|]. split; [repeat split; vm_compute; reflexivity|].
  split; [apply wfb_sound; vm_compute; reflexivity|]. split; [apply (text_sound same_dec same_dec_ok); vm_compute; reflexivity|]. split; [vm_compute; discriminate|]. split; vm_compute; reflexivity.
Qed.
Example C96_edges :
  tells (EBin (lit "^") (nm "2") (nm "40")) = Some (Ok (1099511627776 # 1)) /\ dc_evals "2^40" = Ok (1099511627776 # 1) /\
  tells (EBin (lit "^") (nm "2") (nm "64")) = Some (Err Overflow) /\ dc_evals "2^64" = Err Overflow /\ writable (2 ^ 64) = true /\
  tells (EBin (lit "^") (nm "2") (EPre (lit "-") (nm "3"))) = Some (Ok (1 # 8)) /\ dc_evals "2^(-3)" = Ok (1 # 8) /\
  tells (EPost (nm "27") (lit "!")) = Some (Ok (10888869450418352160768000000 # 1)) /\ tells (EPost (nm "28") (lit "!")) = Some (Err Overflow) /\ dc_evals "28!" = Err Overflow /\
  tells (EPost (nm "2") (lit "!")) = Some (Ok 1) /\ dc_evals "2!" = Ok 1 /\
  tells (EBin (lit "/") (nm "1") (nm "0")) = Some (Err Overflow) /\ dc_evals "1/0" = Err Overflow /\ tells (EBin (lit "/") (nm "1") (nm "3")) = None /\
  tells (ECall (lit "sum") Parenthesis [nm "79228162514264337593543950335"; nm "1"]) = Some Panic /\ dc_evals "sum(79228162514264337593543950335, 1)" = Panic /\
  tells (EBin (lit "+") (nm "79228162514264337593543950335") (nm "1")) = Some (Err Overflow) /\ dc_evals "79228162514264337593543950335 + 1" = Err Overflow /\
  tells (ECall (lit "max") Parenthesis [EPre (lit "-") (nm "0.3"); EPre (lit "-") (nm "0.2")]) = Some (Ok (- 1 # 5)) /\ tells (ECall (lit "floor") Parenthesis [EPre (lit "-") (nm "0.3")]) = Some (Ok (- 1 # 1)).
Proof. repeat match goal with |- _ /\ _ => split end; vm_compute; reflexivity. Qed.
(** A request without a type. *)
Definition dc_service : service dec unit :=
  Service dec unit ref_lib 200 PropOps.exact_libm PropComplex.no_clib no_random false 200 PropSource.parse_dec (fun _ => None) (fun _ => None)
    (fun x => if Qeq_bool (val x) (- 137 # 10) then lit "-13.7" else []) (fun _ => lit "0.5") (fun _ => []).
Definition dc_request : request := Request dc_text None (Some [(lit "x", VString (lit "2.5"))]).
Example C96_request : q_type dc_request = None /\ NoDup (map fst (given dc_request)) /\ (64 <= s_fuel dc_service)%nat /\
  fst (eval_expression dc_service std_env true dc_request tt) = Ok (inl (lit "-13.7")).
Proof. split; [reflexivity|]. split; [constructor; [intros []|constructor]|]. split; [apply Nat.leb_le; reflexivity|]. vm_compute. reflexivity. Qed.
