(** * C55, C56: contexts over [f64] *)
From Coq Require Import List NArith ZArith QArith Qabs Bool Lia Lqa String.
From Coq Require Import Floats.SpecFloat.
From Verif Require Import ModelBase ModelContext ModelEvaluator ModelText ModelDefault ModelFloat ModelNum ModelOps ModelStd
  SpecText SpecExpr SpecOps SpecDecimal SpecDouble ProofText ProofDefault ProofRpn ProofBuild ProofCtx ProofWf ProofDecimal ProofFloat ProofDouble ProofDouble2.
Import ListNotations.
Local Open Scope Z_scope.

(** [d] is a default context over [f64], checked or unchecked, with any configuration. *)
Definition f64_context {W} (fuel : nat) L (rnd : W -> f64 * W) docs E dbg cf d : Prop :=
  checked_context (f64_num fuel) L rnd docs E dbg cf = Ok d \/ unchecked_context (f64_num fuel) L rnd E dbg cf = Ok d.

(** ** C55: arithmetic *)

(** Every operator gives the exact result when that is a double; zero divisors are [DivisionByZero]. *)
Theorem C55_operators : forall W fuel L (rnd : W -> f64 * W) docs E dbg cf d, f64_context fuel L rnd docs E dbg cf d ->
  forall o x y p q w, stands_for x p -> stands_for y q ->
  (ascii_alike o (lit "+") -> a_double (p + q) -> exists z, apply_binary (to_ctx E d) o x y w = (Ok z, w) /\ stands_for z (p + q)) /\
  (ascii_alike o (lit "-") -> a_double (p - q) -> exists z, apply_binary (to_ctx E d) o x y w = (Ok z, w) /\ stands_for z (p - q)) /\
  (ascii_alike o (lit "*") -> a_double (p * q) -> exists z, apply_binary (to_ctx E d) o x y w = (Ok z, w) /\ stands_for z (p * q)) /\
  (ascii_alike o (lit "/") -> ~ (q == 0)%Q -> a_double (p / q) -> exists z, apply_binary (to_ctx E d) o x y w = (Ok z, w) /\ stands_for z (p / q)) /\
  (ascii_alike o (lit "mod") -> ~ (q == 0)%Q -> exists z, apply_binary (to_ctx E d) o x y w = (Ok z, w) /\ stands_for z (p - q * inject_Z (truncated (p / q)))) /\
  (ascii_alike o (lit "/") \/ ascii_alike o (lit "mod") -> (q == 0)%Q -> apply_binary (to_ctx E d) o x y w = (Err DivisionByZero, w)) /\
  (ascii_alike o (lit "+") -> apply_unary (to_ctx E d) o x w = (Ok x, w)) /\
  (ascii_alike o (lit "-") -> exists z, apply_unary (to_ctx E d) o x w = (Ok z, w) /\ stands_for z (- p)).
Proof.
  intros W fuel L rnd docs E dbg cf d Hd o x y p q w Hx Hy.
  assert (NZ : ~ (q == 0)%Q -> f_is_zero y = false). { intros N. apply not_true_iff_false. rewrite (is_zero_exact y q Hy). exact N. }
  assert (ZZ : (q == 0)%Q -> f_is_zero y = true) by apply (is_zero_exact y q Hy).
  unfold apply_binary, apply_unary. destruct Hd as [Hd|Hd]; repeat match goal with |- _ /\ _ => split end; intros Ho.
  - rewrite (checked_bin (f64_num fuel) L rnd docs E dbg cf d 0 (c_add (f64_num fuel)) o Hd eq_refl Ho). intros D. eexists. split; [reflexivity|]. apply add_exact; assumption.
  - rewrite (checked_bin (f64_num fuel) L rnd docs E dbg cf d 1 (c_sub (f64_num fuel)) o Hd eq_refl Ho). intros D. eexists. split; [reflexivity|]. apply sub_exact; assumption.
  - rewrite (checked_bin (f64_num fuel) L rnd docs E dbg cf d 2 (c_mul (f64_num fuel)) o Hd eq_refl Ho). intros D. eexists. split; [reflexivity|]. apply mul_exact; assumption.
  - rewrite (checked_bin (f64_num fuel) L rnd docs E dbg cf d 3 (c_div (f64_num fuel)) o Hd eq_refl Ho). intros N D. exists (f_div x y). split; [|apply div_exact; assumption].
    cbn [c_div binop bf_call n_is_zero n_cdiv f64_num]. rewrite (NZ N). reflexivity.
  - rewrite (checked_bin (f64_num fuel) L rnd docs E dbg cf d 5 (c_mod (f64_num fuel)) o Hd eq_refl Ho). intros N. exists (f_rem x y). split; [|apply rem_exact; assumption].
    cbn [c_mod binop bf_call n_is_zero n_crem f64_num]. rewrite (NZ N). reflexivity.
  - intros Z. destruct Ho as [Ho|Ho].
    + rewrite (checked_bin (f64_num fuel) L rnd docs E dbg cf d 3 (c_div (f64_num fuel)) o Hd eq_refl Ho). cbn [c_div binop bf_call n_is_zero n_cdiv f64_num]. rewrite (ZZ Z). reflexivity.
    + rewrite (checked_bin (f64_num fuel) L rnd docs E dbg cf d 5 (c_mod (f64_num fuel)) o Hd eq_refl Ho). cbn [c_mod binop bf_call n_is_zero n_cdiv f64_num]. rewrite (ZZ Z). reflexivity.
  - rewrite (checked_un (f64_num fuel) L rnd docs E dbg cf d 0 op_plus o Hd eq_refl Ho). reflexivity.
  - rewrite (checked_un (f64_num fuel) L rnd docs E dbg cf d 1 (c_neg (f64_num fuel)) o Hd eq_refl Ho). eexists. split; [reflexivity|]. apply neg_exact. exact Hx.
  - rewrite (unchecked_bin (f64_num fuel) L rnd E dbg cf d 0 (u_add (f64_num fuel)) o Hd eq_refl Ho). intros D. eexists. split; [reflexivity|]. apply add_exact; assumption.
  - rewrite (unchecked_bin (f64_num fuel) L rnd E dbg cf d 1 (u_sub (f64_num fuel)) o Hd eq_refl Ho). intros D. eexists. split; [reflexivity|]. apply sub_exact; assumption.
  - rewrite (unchecked_bin (f64_num fuel) L rnd E dbg cf d 2 (u_mul (f64_num fuel)) o Hd eq_refl Ho). intros D. eexists. split; [reflexivity|]. apply mul_exact; assumption.
  - rewrite (unchecked_bin (f64_num fuel) L rnd E dbg cf d 3 (u_div (f64_num fuel)) o Hd eq_refl Ho). intros N D. exists (f_div x y). split; [|apply div_exact; assumption].
    cbn [u_div binop bf_call n_is_zero n_div f64_num]. rewrite (NZ N). reflexivity.
  - rewrite (unchecked_bin (f64_num fuel) L rnd E dbg cf d 5 (u_mod (f64_num fuel)) o Hd eq_refl Ho). intros N. exists (f_rem x y). split; [|apply rem_exact; assumption].
    cbn [u_mod binop bf_call n_is_zero n_rem f64_num]. rewrite (NZ N). reflexivity.
  - intros Z. destruct Ho as [Ho|Ho].
    + rewrite (unchecked_bin (f64_num fuel) L rnd E dbg cf d 3 (u_div (f64_num fuel)) o Hd eq_refl Ho). cbn [u_div binop bf_call n_is_zero f64_num]. rewrite (ZZ Z). reflexivity.
    + rewrite (unchecked_bin (f64_num fuel) L rnd E dbg cf d 5 (u_mod (f64_num fuel)) o Hd eq_refl Ho). cbn [u_mod binop bf_call n_is_zero f64_num]. rewrite (ZZ Z). reflexivity.
  - rewrite (unchecked_un (f64_num fuel) L rnd E dbg cf d 0 op_plus o Hd eq_refl Ho). reflexivity.
  - rewrite (unchecked_un (f64_num fuel) L rnd E dbg cf d 1 (u_neg (f64_num fuel)) o Hd eq_refl Ho). eexists. split; [reflexivity|]. apply neg_exact. exact Hx.
Qed.
Print Assumptions C55_operators.

(** An expression all of whose parts have values that are doubles evaluates to its exact value. *)
Theorem C55_expressions : forall W fuel L (rnd : W -> f64 * W) docs E dbg cf d, f64_context fuel L rnd docs E dbg cf d ->
  forall e q w, wf (to_ctx E d) e -> double_value e q -> exists z, eval_tokens (to_ctx E d) dbg (print e) w = (Ok z, w) /\ stands_for z q.
Proof.
  intros W fuel L rnd docs E dbg cf d Hd e q w Hw Hv. rewrite eval_tokens_print by exact Hw. clear Hw. revert w.
  assert (B : forall o l r p q v (Hop : forall a b, stands_for a p -> stands_for b q -> forall w, exists z, apply_binary (to_ctx E d) o a b w = (Ok z, w) /\ stands_for z v),
    (forall w, exists a, denote (to_ctx E d) l w = (Ok a, w) /\ stands_for a p) -> (forall w, exists b, denote (to_ctx E d) r w = (Ok b, w) /\ stands_for b q) ->
    forall w, exists z, bind (denote (to_ctx E d) l) (fun x => bind (denote (to_ctx E d) r) (fun y => apply_binary (to_ctx E d) o x y)) w = (Ok z, w) /\ stands_for z v).
  { intros o l r p0 q0 v Hop Hl Hr w. destruct (Hl w) as (a & A1 & A2), (Hr w) as (b & B1 & B2). unfold bind. rewrite A1, B1. apply Hop; assumption. }
  pose proof (fun o a b p q w Ha Hb => C55_operators W fuel L rnd docs E dbg cf d Hd o a b p q w Ha Hb) as OP. cbv beta in OP.
  induction Hv as [x q Hx|g e q Hv IH|u e q Hu Hv IH|u e q Hu Hv IH|o l r p q Ho Hl IHl Hr IHr Rq|o l r p q Ho Hl IHl Hr IHr Rq|o l r p q Ho Hl IHl Hr IHr Rq|l r p q Hl IHl Hr IHr Rq|o l r p q Ho Hl IHl Hr IHr Hy Rq|o l r p q Ho Hl IHl Hr IHr Hy];
  cbn [denote].
  - intros w. exists x. split; [reflexivity|exact Hx].
  - exact IH.
  - intros w. destruct (IH w) as (a & A1 & A2). unfold bind. rewrite A1. exists a. split; [|exact A2]. apply (OP u a a q q w A2 A2). exact Hu.
  - intros w. destruct (IH w) as (a & A1 & A2). unfold bind. rewrite A1. apply (OP u a a q q w A2 A2). exact Hu.
  - apply (B o l r p q); try assumption. intros a b Ha Hb w. apply (OP o a b p q w Ha Hb); assumption.
  - apply (B o l r p q); try assumption. intros a b Ha Hb w. apply (OP o a b p q w Ha Hb); assumption.
  - apply (B o l r p q); try assumption. intros a b Ha Hb w. apply (OP o a b p q w Ha Hb); assumption.
  - apply (B times l r p q); try assumption. intros a b Ha Hb w. apply (OP times a b p q w Ha Hb); [apply alike_refl|assumption].
  - apply (B o l r p q); try assumption. intros a b Ha Hb w. apply (OP o a b p q w Ha Hb); assumption.
  - apply (B o l r p q); try assumption. intros a b Ha Hb w. apply (OP o a b p q w Ha Hb); assumption.
Qed.
Print Assumptions C55_expressions.

(** All the integers up to 2^53 are doubles, and each has one double only (zero has two): integer arithmetic is exact there. *)
Theorem C55_integers : forall z, Z.abs z <= 2 ^ 53 -> a_double (inject_Z z) /\ stands_for (f_of_Z z) (inject_Z z) /\
  (forall x, z <> 0 -> stands_for x (inject_Z z) -> x = f_of_Z z).
Proof.
  intros z H. split; [apply int_double; exact H|]. split; [apply of_Z_exact, int_double; exact H|]. intros x N Hx. destruct (int_is x z Hx H) as [->|[Z _]]; [reflexivity|contradiction].
Qed.
Print Assumptions C55_integers.

(** Comparisons between finite doubles are those of the numbers, so [max] and [min] of two or more finite doubles give the
    greatest and the least (whatever the order of the arguments). *)
Lemma best_greatest : forall fuel xs (ps : list Q), Forall2 stands_for xs ps -> forall a p, stands_for a p ->
  (exists z m, best (n_gt (f64_num fuel)) (Some a) xs = Some z /\ stands_for z m /\ (p <= m)%Q /\ Forall (fun q => q <= m)%Q ps /\ (In z (a :: xs))) /\
  (exists z m, best (n_lt (f64_num fuel)) (Some a) xs = Some z /\ stands_for z m /\ (m <= p)%Q /\ Forall (fun q => m <= q)%Q ps /\ (In z (a :: xs))).
Proof.
  intros fuel xs ps F. induction F as [|x q xs ps Hx F IH]; intros a p Ha; cbn [best].
  - split; exists a, p; (split; [reflexivity|]); (split; [exact Ha|]); (split; [lra|]); (split; [constructor|left; reflexivity]).
  - unfold n_gt, n_lt. cbn [n_cmp f64_num]. rewrite (cmp_exact x a q p Hx Ha). split.
    + destruct (q ?= p)%Q eqn:C.
      * apply (proj2 (Qeq_alt _ _)) in C. destruct (IH a p Ha) as [(z & m & A1 & A2 & A3 & A4 & A5) _]. exists z, m. split; [exact A1|]. split; [exact A2|]. split; [exact A3|].
        split; [constructor; [lra|exact A4]|]. destruct A5 as [A5|A5]; [left; exact A5|right; right; exact A5].
      * apply (proj2 (Qlt_alt _ _)) in C. destruct (IH a p Ha) as [(z & m & A1 & A2 & A3 & A4 & A5) _]. exists z, m. split; [exact A1|]. split; [exact A2|]. split; [exact A3|].
        split; [constructor; [lra|exact A4]|]. destruct A5 as [A5|A5]; [left; exact A5|right; right; exact A5].
      * apply (proj2 (Qgt_alt _ _)) in C. destruct (IH x q Hx) as [(z & m & A1 & A2 & A3 & A4 & A5) _]. exists z, m. split; [exact A1|]. split; [exact A2|]. split; [lra|].
        split; [constructor; [lra|exact A4]|]. right. exact A5.
    + destruct (q ?= p)%Q eqn:C.
      * apply (proj2 (Qeq_alt _ _)) in C. destruct (IH a p Ha) as [_ (z & m & A1 & A2 & A3 & A4 & A5)]. exists z, m. split; [exact A1|]. split; [exact A2|]. split; [exact A3|].
        split; [constructor; [lra|exact A4]|]. destruct A5 as [A5|A5]; [left; exact A5|right; right; exact A5].
      * apply (proj2 (Qlt_alt _ _)) in C. destruct (IH x q Hx) as [_ (z & m & A1 & A2 & A3 & A4 & A5)]. exists z, m. split; [exact A1|]. split; [exact A2|]. split; [lra|].
        split; [constructor; [lra|exact A4]|]. right. exact A5.
      * apply (proj2 (Qgt_alt _ _)) in C. destruct (IH a p Ha) as [_ (z & m & A1 & A2 & A3 & A4 & A5)]. exists z, m. split; [exact A1|]. split; [exact A2|]. split; [exact A3|].
        split; [constructor; [lra|exact A4]|]. destruct A5 as [A5|A5]; [left; exact A5|right; right; exact A5].
Qed.
Lemma f64_fun : forall W fuel L (rnd : W -> f64 * W) docs E dbg cf d, f64_context fuel L rnd docs E dbg cf d -> forall i j f q,
  nth_error (checked_funs (f64_num fuel) L rnd docs) i = Some f -> nth_error (unchecked_funs (f64_num fuel) L rnd) j = Some f -> ascii_alike q (fn_name f) ->
  get_function (to_ctx E d) q = Some f.
Proof.
  intros W fuel L rnd docs E dbg cf d [Hd|Hd] i j f q H1 H2 Hq; [exact (checked_fun (f64_num fuel) L rnd docs E dbg cf d i f q Hd H1 Hq)|exact (unchecked_fun (f64_num fuel) L rnd E dbg cf d j f q Hd H2 Hq)].
Qed.
Theorem C56_max_min : forall W fuel L (rnd : W -> f64 * W) docs E dbg cf d, f64_context fuel L rnd docs E dbg cf d ->
  forall xs ps w, Forall2 stands_for xs ps -> (2 <= List.length xs)%nat ->
  (exists z m, apply_function (to_ctx E d) (lit "max") xs w = (Ok z, w) /\ In z xs /\ stands_for z m /\ Forall (fun p => p <= m)%Q ps) /\
  (exists z m, apply_function (to_ctx E d) (lit "min") xs w = (Ok z, w) /\ In z xs /\ stands_for z m /\ Forall (fun p => m <= p)%Q ps).
Proof.
  intros W fuel L rnd docs E dbg cf d Hd xs ps w F Hl. unfold apply_function.
  rewrite (f64_fun W fuel L rnd docs E dbg cf d Hd 3 3 (op_max (f64_num fuel)) (lit "max") eq_refl eq_refl (alike_refl _)).
  rewrite (f64_fun W fuel L rnd docs E dbg cf d Hd 4 4 (op_min (f64_num fuel)) (lit "min") eq_refl eq_refl (alike_refl _)).
  destruct F as [|x p xs ps Hx F]; [simpl in Hl; lia|]. destruct xs as [|y xs]; [simpl in Hl; lia|].
  destruct (best_greatest fuel _ _ F x p Hx) as [(z & m & A1 & A2 & A3 & A4 & A5) (z' & m' & B1 & B2 & B3 & B4 & B5)].
  cbn [op_max op_min fun_ fn_call List.length Nat.leb]. split.
  - exists z, m. split; [unfold lift; change (best (n_gt (f64_num fuel)) None (x :: y :: xs)) with (best (n_gt (f64_num fuel)) (Some x) (y :: xs)); rewrite A1; reflexivity|].
    split; [exact A5|]. split; [exact A2|]. constructor; assumption.
  - exists z', m'. split; [unfold lift; change (best (n_lt (f64_num fuel)) None (x :: y :: xs)) with (best (n_lt (f64_num fuel)) (Some x) (y :: xs)); rewrite B1; reflexivity|].
    split; [exact B5|]. split; [exact B2|]. constructor; assumption.
Qed.
Print Assumptions C56_max_min.

(** ... but not if one of them is NaN: then [max] depends on the order of its arguments. *)
Theorem C56_nan_order_refuted : forall W fuel L (rnd : W -> f64 * W) docs E dbg cf d, f64_context fuel L rnd docs E dbg cf d ->
  forall x p w, stands_for x p ->
  apply_function (to_ctx E d) (lit "max") [S754_nan; x] w = (Ok S754_nan, w) /\ apply_function (to_ctx E d) (lit "max") [x; S754_nan] w = (Ok x, w) /\
  apply_function (to_ctx E d) (lit "min") [S754_nan; x] w = (Ok S754_nan, w) /\ apply_function (to_ctx E d) (lit "min") [x; S754_nan] w = (Ok x, w).
Proof.
  intros W fuel L rnd docs E dbg cf d Hd x p w Hx. unfold apply_function.
  rewrite (f64_fun W fuel L rnd docs E dbg cf d Hd 3 3 (op_max (f64_num fuel)) (lit "max") eq_refl eq_refl (alike_refl _)).
  rewrite (f64_fun W fuel L rnd docs E dbg cf d Hd 4 4 (op_min (f64_num fuel)) (lit "min") eq_refl eq_refl (alike_refl _)).
  destruct x; repeat split; reflexivity.
Qed.
Print Assumptions C56_nan_order_refuted.

(** ** Sums, products and averages are exact while every partial sum or product is a double *)
Lemma sum_steps : forall xs ps, Forall2 stands_for xs ps -> forall acc a, stands_for acc a -> (forall k, a_double (a + Qsum (firstn k ps))) ->
  exists z, fold_args (fun u v => Ok (f_add u v)) (Some acc) xs = Ok (Some z) /\ stands_for z (a + Qsum ps).
Proof.
  intros xs ps F. induction F as [|x p xs ps Hx F IH]; intros acc a Ha Hk; cbn [fold_args].
  - exists acc. split; [reflexivity|]. apply (stands_comp _ a); [simpl; ring|exact Ha].
  - assert (G : stands_for (f_add acc x) (a + p)). { apply add_exact; [exact Ha|exact Hx|]. apply (double_comp (a + Qsum (firstn 1 (p :: ps)))); [simpl; ring|apply Hk]. }
    destruct (IH (f_add acc x) (a + p)%Q G) as (z & Z1 & Z2).
    + intros k. apply (double_comp (a + Qsum (firstn (S k) (p :: ps)))); [simpl; ring|apply Hk].
    + exists z. split; [exact Z1|]. apply (stands_comp _ (a + p + Qsum ps)); [simpl; ring|exact Z2].
Qed.
Lemma product_steps : forall xs ps, Forall2 stands_for xs ps -> forall acc a, stands_for acc a -> (forall k, a_double (a * Qproduct (firstn k ps))) ->
  exists z, fold_args (fun u v => Ok (f_mul u v)) (Some acc) xs = Ok (Some z) /\ stands_for z (a * Qproduct ps).
Proof.
  intros xs ps F. induction F as [|x p xs ps Hx F IH]; intros acc a Ha Hk; cbn [fold_args].
  - exists acc. split; [reflexivity|]. apply (stands_comp _ a); [simpl; ring|exact Ha].
  - assert (G : stands_for (f_mul acc x) (a * p)). { apply mul_exact; [exact Ha|exact Hx|]. apply (double_comp (a * Qproduct (firstn 1 (p :: ps)))); [simpl; ring|apply Hk]. }
    destruct (IH (f_mul acc x) (a * p)%Q G) as (z & Z1 & Z2).
    + intros k. apply (double_comp (a * Qproduct (firstn (S k) (p :: ps)))); [simpl; ring|apply Hk].
    + exists z. split; [exact Z1|]. apply (stands_comp _ (a * p * Qproduct ps)); [simpl; ring|exact Z2].
Qed.
Theorem C56_sum_product_avg : forall W fuel L (rnd : W -> f64 * W) docs E dbg cf d, f64_context fuel L rnd docs E dbg cf d ->
  forall xs ps w, Forall2 stands_for xs ps -> xs <> [] ->
  ((forall k, a_double (Qsum (firstn k ps))) -> exists z, apply_function (to_ctx E d) (lit "sum") xs w = (Ok z, w) /\ stands_for z (Qsum ps)) /\
  ((forall k, a_double (Qproduct (firstn k ps))) -> exists z, apply_function (to_ctx E d) (lit "product") xs w = (Ok z, w) /\ stands_for z (Qproduct ps)) /\
  ((forall k, a_double (Qsum (firstn k ps))) -> let n := Z.of_nat (List.length xs) in n <= 2 ^ 53 -> a_double (Qsum ps / inject_Z n) ->
     exists z, apply_function (to_ctx E d) (lit "avg") xs w = (Ok z, w) /\ stands_for z (Qsum ps / inject_Z n)).
Proof.
  intros W fuel L rnd docs E dbg cf d Hd xs ps w F Nx. destruct F as [|x p xs ps Hx F]; [congruence|]. clear Nx.
  assert (SU : (forall k, a_double (Qsum (firstn k (p :: ps)))) -> exists z, fold_args (fun u v => Ok (f_add u v)) (Some x) xs = Ok (Some z) /\ stands_for z (Qsum (p :: ps))).
  { intros Hk. apply (sum_steps _ _ F x p Hx). intros k. exact (Hk (S k)). }
  assert (P : (forall k, a_double (Qproduct (firstn k (p :: ps)))) -> exists z, fold_args (fun u v => Ok (f_mul u v)) (Some x) xs = Ok (Some z) /\ stands_for z (Qproduct (p :: ps))).
  { intros Hk. apply (product_steps _ _ F x p Hx). intros k. exact (Hk (S k)). }
  split; [|split].
  - intros Hk. destruct (SU Hk) as (z & Z1 & Z2). exists z. split; [|exact Z2]. unfold apply_function. destruct Hd as [Hd|Hd].
    + rewrite (checked_fun (f64_num fuel) L rnd docs E dbg cf d 0 (c_sum (f64_num fuel)) (lit "sum") Hd eq_refl (alike_refl _)). cbn [c_sum fun_ fn_call]. unfold lift.
      change (fold_args (fun a x0 => or_overflow (n_cadd (f64_num fuel) a x0)) None (x :: xs)) with (fold_args (fun u v => Ok (f_add u v)) (Some x) xs). rewrite Z1. reflexivity.
    + rewrite (unchecked_fun (f64_num fuel) L rnd E dbg cf d 0 (u_sum (f64_num fuel)) (lit "sum") Hd eq_refl (alike_refl _)). cbn [u_sum fun_ fn_call]. unfold lift.
      change (fold_args (n_add (f64_num fuel)) None (x :: xs)) with (fold_args (fun u v => Ok (f_add u v)) (Some x) xs). rewrite Z1. reflexivity.
  - intros Hk. destruct (P Hk) as (z & Z1 & Z2). exists z. split; [|exact Z2]. unfold apply_function. destruct Hd as [Hd|Hd].
    + rewrite (checked_fun (f64_num fuel) L rnd docs E dbg cf d 1 (c_prod (f64_num fuel)) (lit "product") Hd eq_refl (alike_refl _)). cbn [c_prod fun_ fn_call]. unfold lift.
      change (fold_args (fun a x0 => or_overflow (n_cmul (f64_num fuel) a x0)) None (x :: xs)) with (fold_args (fun u v => Ok (f_mul u v)) (Some x) xs). rewrite Z1. reflexivity.
    + rewrite (unchecked_fun (f64_num fuel) L rnd E dbg cf d 2 (u_prod (f64_num fuel)) (lit "product") Hd eq_refl (alike_refl _)). cbn [u_prod fun_ fn_call]. unfold lift.
      change (fold_args (n_mul (f64_num fuel)) None (x :: xs)) with (fold_args (fun u v => Ok (f_mul u v)) (Some x) xs). rewrite Z1. reflexivity.
  - intros Hk n Hn Ha. destruct (SU Hk) as (z & Z1 & Z2). assert (Pn : 0 < n) by (unfold n; cbn [List.length]; lia).
    assert (Kn : stands_for (f_of_Z n) (inject_Z n)) by (apply of_Z_exact, int_double; lia).
    assert (Nz : ~ (inject_Z n == 0)%Q) by (change 0%Q with (inject_Z 0); rewrite inject_Z_injective; lia).
    exists (f_div z (f_of_Z n)). split; [|apply div_exact; assumption]. unfold apply_function. destruct Hd as [Hd|Hd].
    + rewrite (checked_fun (f64_num fuel) L rnd docs E dbg cf d 2 (c_avg (f64_num fuel)) (lit "avg") Hd eq_refl (alike_refl _)). cbn [c_avg fun_ fn_call]. unfold lift.
      change (fold_args (fun a x0 => or_overflow (n_cadd (f64_num fuel) a x0)) None (x :: xs)) with (fold_args (fun u v => Ok (f_add u v)) (Some x) xs). rewrite Z1.
      change ((or_overflow (if f_is_zero (f_of_Z n) then None else Some (f_div z (f_of_Z n))), w) = (Ok (f_div z (f_of_Z n)), w)).
      replace (f_is_zero (f_of_Z n)) with false; [reflexivity|]. symmetry. apply not_true_iff_false. rewrite (is_zero_exact _ _ Kn). exact Nz.
    + rewrite (unchecked_fun (f64_num fuel) L rnd E dbg cf d 1 (u_avg (f64_num fuel)) (lit "avg") Hd eq_refl (alike_refl _)). cbn [u_avg fun_ fn_call]. unfold lift.
      change (fold_args (n_add (f64_num fuel)) None (x :: xs)) with (fold_args (fun u v => Ok (f_add u v)) (Some x) xs). rewrite Z1. reflexivity.
Qed.
Print Assumptions C56_sum_product_avg.

(** ** Factorial *)
Lemma fact_pos : forall k, 1 <= fact k.
Proof. induction k as [|k IH]; cbn [fact]; lia. Qed.
Lemma fact_ge : forall k, Z.of_nat k <= fact k.
Proof. destruct k as [|k]; cbn [fact]; [lia|]. pose proof (fact_pos k). nia. Qed.
Lemma f64_fact_loop : forall fuel0 k fuel total t next, stands_for total (inject_Z t) -> stands_for next (inject_Z (Z.of_nat k)) -> 1 <= t -> t * fact k <= 2 ^ 53 -> (k <= fuel)%nat ->
  exists z z', fact_loop (f64_num fuel0) fuel total next = Some (Ok (z, z')) /\ stands_for z (inject_Z (t * fact k)) /\ stands_for z' 0.
Proof.
  intros fuel0 k. induction k as [|k IH]; intros fuel total t next Ht Hn P B Hf.
  - exists total, next. split; [|split; [apply (stands_comp _ (inject_Z t)); [cbn [fact]; rewrite Z.mul_1_r; reflexivity|exact Ht]|exact Hn]].
    assert (C : n_ge (f64_num fuel0) next (n_one (f64_num fuel0)) = false).
    { unfold n_ge. cbn [n_cmp n_one f64_num]. rewrite (cmp_exact _ _ _ _ Hn one_stands). reflexivity. }
    destruct fuel; cbn [fact_loop]; rewrite C; reflexivity.
  - destruct fuel as [|fuel]; [lia|]. cbn [fact_loop]. pose proof (fact_pos k) as FP. cbn [fact] in B. set (K := Z.of_nat (S k)) in *.
    assert (KP : 1 <= K) by (unfold K; lia).
    assert (C : n_ge (f64_num fuel0) next (n_one (f64_num fuel0)) = true).
    { unfold n_ge. cbn [n_cmp n_one f64_num]. rewrite (cmp_exact _ _ _ _ Hn one_stands). destruct (inject_Z K ?= 1)%Q eqn:C; try reflexivity.
      apply (proj2 (Qlt_alt _ _)) in C. change 1%Q with (inject_Z 1) in C. rewrite <- Zlt_Qlt in C. lia. }
    rewrite C. cbn [n_mul n_sub n_one f64_num].
    assert (M : stands_for (f_mul total next) (inject_Z (t * K))).
    { apply (stands_comp _ (inject_Z t * inject_Z K)); [rewrite inject_Z_mult; reflexivity|]. apply mul_exact; [exact Ht|exact Hn|].
      apply (double_comp (inject_Z (t * K))); [rewrite inject_Z_mult; reflexivity|]. apply int_double. rewrite Z.abs_eq by nia. nia. }
    assert (S : stands_for (f_sub next f_one) (inject_Z (Z.of_nat k))).
    { assert (Q : (inject_Z K - 1 == inject_Z (Z.of_nat k))%Q).
      { unfold K. rewrite Nat2Z.inj_succ. unfold Z.succ. rewrite inject_Z_plus. change (inject_Z 1) with 1%Q. ring. }
      apply (stands_comp _ _ _ Q). apply sub_exact; [exact Hn|exact one_stands|]. apply (double_comp _ _ (Qeq_sym _ _ Q)). apply int_double. unfold K in *. nia. }
    destruct (IH fuel (f_mul total next) (t * K) (f_sub next f_one) M S) as (z & z' & Z1 & Z2 & Z3); [nia|nia|lia|].
    exists z, z'. split; [exact Z1|]. split; [|exact Z3]. apply (stands_comp _ (inject_Z (t * K * fact k))); [|exact Z2]. cbn [fact]. fold K. rewrite Z.mul_assoc. reflexivity.
Qed.
Theorem C56_factorial : forall W fuel L (rnd : W -> f64 * W) docs E dbg cf d, f64_context fuel L rnd docs E dbg cf d ->
  forall x n w, stands_for x (inject_Z (Z.of_nat n)) -> fact n <= 2 ^ 53 -> (n <= fuel)%nat ->
  exists z, apply_unary (to_ctx E d) (lit "!") x w = (Ok z, w) /\ stands_for z (inject_Z (fact n)).
Proof.
  intros W fuel L rnd docs E dbg cf d Hd x n w Hx B Hf. unfold apply_unary.
  assert (G : get_unary (to_ctx E d) (lit "!") = Some (op_factorial (f64_num fuel) L)).
  { destruct Hd as [Hd|Hd]; [exact (checked_un (f64_num fuel) L rnd docs E dbg cf d 2 _ (lit "!") Hd eq_refl (alike_refl _))|exact (unchecked_un (f64_num fuel) L rnd E dbg cf d 2 _ (lit "!") Hd eq_refl (alike_refl _))]. }
  rewrite G. cbn [op_factorial unop uf_call n_fuel f64_num]. unfold factorial, lift. unfold n_lt. cbn [n_cmp n_is_zero n_is_one n_zero n_one n_sub f64_num].
  rewrite (cmp_exact _ _ _ _ Hx one_stands), (cmp_exact _ _ _ _ Hx zero_stands).
  assert (C0 : (inject_Z (Z.of_nat n) ?= 0)%Q <> Lt).
  { intros C. apply (proj2 (Qlt_alt _ _)) in C. change 0%Q with (inject_Z 0) in C. rewrite <- Zlt_Qlt in C. lia. }
  destruct (inject_Z (Z.of_nat n) ?= 0)%Q eqn:C; [|congruence|]; clear C0.
  - apply (proj2 (Qeq_alt _ _)) in C. rewrite (proj2 (is_zero_exact x _ Hx) C). cbn [orb]. exists f_one. split; [reflexivity|].
    change 0%Q with (inject_Z 0) in C. rewrite inject_Z_injective in C. replace n with 0%nat by lia. exact one_stands.
  - apply (proj2 (Qgt_alt _ _)) in C. change 0%Q with (inject_Z 0) in C. rewrite <- Zlt_Qlt in C.
    replace (f_is_zero x) with false by (symmetry; apply not_true_iff_false; rewrite (is_zero_exact x _ Hx); change 0%Q with (inject_Z 0); rewrite inject_Z_injective; lia). cbn [orb].
    destruct (inject_Z (Z.of_nat n) ?= 1)%Q eqn:C1.
    + exists f_one. split; [reflexivity|]. apply (proj2 (Qeq_alt _ _)) in C1. change 1%Q with (inject_Z 1) in C1. rewrite inject_Z_injective in C1. replace n with 1%nat by lia. exact one_stands.
    + exfalso. apply (proj2 (Qlt_alt _ _)) in C1. change 1%Q with (inject_Z 1) in C1. rewrite <- Zlt_Qlt in C1. lia.
    + clear C1. destruct n as [|k]; [lia|].
      assert (Q : (inject_Z (Z.of_nat (S k)) - 1 == inject_Z (Z.of_nat k))%Q).
      { rewrite Nat2Z.inj_succ. unfold Z.succ. rewrite inject_Z_plus. change (inject_Z 1) with 1%Q. ring. }
      assert (SB : stands_for (f_sub x f_one) (inject_Z (Z.of_nat k))).
      { apply (stands_comp _ _ _ Q). apply sub_exact; [exact Hx|exact one_stands|]. apply (double_comp _ _ (Qeq_sym _ _ Q)). apply int_double. pose proof (fact_ge (S k)). lia. }
      destruct (f64_fact_loop fuel k fuel x (Z.of_nat (S k)) (f_sub x f_one) Hx SB) as (z & z' & Z1 & Z2 & Z3); [lia|exact B|lia|].
      rewrite Z1. rewrite (proj2 (is_zero_exact z' _ Z3) (Qeq_refl 0)). cbn [negb]. exists z. split; [reflexivity|exact Z2].
Qed.
Print Assumptions C56_factorial.

(** ** Square root of a perfect square, absolute value *)
Theorem C56_sqrt : forall W fuel L (rnd : W -> f64 * W) docs E dbg cf d, f64_context fuel L rnd docs E dbg cf d ->
  forall x z w, 0 <= z -> z * z <= 2 ^ 53 -> stands_for x (inject_Z (z * z)) ->
  exists y, apply_function (to_ctx E d) (lit "sqrt") [x] w = (Ok y, w) /\ stands_for y (inject_Z z).
Proof.
  intros W fuel L rnd docs E dbg cf d Hd x z w Hz B Hx. unfold apply_function.
  rewrite (f64_fun W fuel L rnd docs E dbg cf d Hd 6 5 (op_sqrt (f64_num fuel)) (lit "sqrt") eq_refl eq_refl (alike_refl _)).
  exists (f_sqrt x). split.
  - cbn [op_sqrt forward fun_ fn_call]. unfold lift, try_to_float. cbn [n_to_f64 f64_num]. destruct (stands_finite _ _ Hx) as [-> ->]. cbn [orb rbind].
    rewrite (approx_int x (z * z) Hx) by lia. reflexivity.
  - apply sqrt_exact; [rewrite <- inject_Z_mult; exact Hx|change 0%Q with (inject_Z 0); rewrite <- Zle_Qle; exact Hz|apply int_double; nia].
Qed.
Print Assumptions C56_sqrt.

Theorem C56_abs : forall W fuel L (rnd : W -> f64 * W) docs E dbg cf d, checked_context (f64_num fuel) L rnd docs E dbg cf = Ok d ->
  forall x p w, stands_for x p -> exists y, apply_function (to_ctx E d) (lit "abs") [x] w = (Ok y, w) /\ stands_for y (Qabs p).
Proof.
  intros W fuel L rnd docs E dbg cf d Hd x p w Hx. unfold apply_function.
  rewrite (checked_fun (f64_num fuel) L rnd docs E dbg cf d 5 (c_abs (f64_num fuel)) (lit "abs") Hd eq_refl (alike_refl _)).
  cbn [c_abs fun_ fn_call]. unfold lift, n_ge. cbn [n_cmp n_zero n_cneg f64_num]. rewrite (cmp_exact _ _ _ _ Hx zero_stands). destruct (p ?= 0)%Q eqn:C.
  - apply (proj2 (Qeq_alt _ _)) in C. exists x. split; [reflexivity|]. apply (stands_comp _ p); [rewrite C; reflexivity|exact Hx].
  - apply (proj2 (Qlt_alt _ _)) in C. exists (f_neg x). split; [reflexivity|]. apply (stands_comp _ (- p)); [rewrite Qabs_neg by lra; reflexivity|apply neg_exact; exact Hx].
  - apply (proj2 (Qgt_alt _ _)) in C. exists x. split; [reflexivity|]. apply (stands_comp _ p); [rewrite Qabs_pos by lra; reflexivity|exact Hx].
Qed.
Print Assumptions C56_abs.

(** ** Overflow is not an error with [f64], not even in a checked context: the result is an infinity. *)
Definition f_max : f64 := f_of (2 ^ 53 - 1) 971.
Theorem C55_overflow_refuted : forall W fuel L (rnd : W -> f64 * W) docs E dbg cf d, f64_context fuel L rnd docs E dbg cf d -> forall w,
  stands_for f_max (dyadic (2 ^ 53 - 1) 971) /\
  apply_binary (to_ctx E d) (lit "+") f_max f_max w = (Ok (S754_infinity false), w) /\ apply_binary (to_ctx E d) (lit "*") f_max f_max w = (Ok (S754_infinity false), w).
Proof.
  intros W fuel L rnd docs E dbg cf d Hd w. split.
  - apply normalize_double; [reflexivity|]. exists (2 ^ 53 - 1), 971. split; [lia|]. split; [lia|reflexivity].
  - unfold apply_binary. destruct Hd as [Hd|Hd].
    + rewrite (checked_bin (f64_num fuel) L rnd docs E dbg cf d 0 (c_add (f64_num fuel)) (lit "+") Hd eq_refl (alike_refl _)), (checked_bin (f64_num fuel) L rnd docs E dbg cf d 2 (c_mul (f64_num fuel)) (lit "*") Hd eq_refl (alike_refl _)).
      clear Hd. split; vm_compute; reflexivity.
    + rewrite (unchecked_bin (f64_num fuel) L rnd E dbg cf d 0 (u_add (f64_num fuel)) (lit "+") Hd eq_refl (alike_refl _)), (unchecked_bin (f64_num fuel) L rnd E dbg cf d 2 (u_mul (f64_num fuel)) (lit "*") Hd eq_refl (alike_refl _)).
      clear Hd. split; vm_compute; reflexivity.
Qed.
Print Assumptions C55_overflow_refuted.

(** ** Cases *)
Definition f_ctx : dctx f64 unit := unres (checked_context (f64_num 100) no_libm no_random true std_env true implicit_config) implicit_config.
Lemma f_ctx_is : f64_context 100 no_libm no_random true std_env true implicit_config f_ctx.
Proof. left. unfold f_ctx. rewrite (checked_is (f64_num 100) no_libm no_random true std_env true f_PI f_E eq_refl eq_refl). reflexivity. Qed.
(** [2.5 * (1 - 0.125) / 4 mod 0.5 = 0.046875] *)
Definition C55_tree : expr f64 :=
  EBin (lit "mod") (EBin (lit "/") (EBin (lit "*") (ENum (f_of 5 (-1))) (EGroup Parenthesis (EBin (lit "-") (ENum (f_of_Z 1)) (ENum (f_of 1 (-3)))))) (ENum (f_of_Z 4))) (ENum (f_of 1 (-1))).
Lemma double_by : forall m e q, Z.abs m < 2 ^ 53 -> -1074 <= e <= 971 -> (q == dyadic m e)%Q -> a_double q.
Proof. intros m e q A B C. exists m, e. auto. Qed.
Lemma of_stands : forall m e, Z.abs m < 2 ^ 53 -> -1074 <= e <= 971 -> stands_for (f_of m e) (dyadic m e).
Proof. intros m e A B. apply normalize_double; [reflexivity|]. apply (double_by m e); [exact A|exact B|reflexivity]. Qed.
Example C55_case : wf (to_ctx std_env f_ctx) C55_tree /\ (exists q, double_value C55_tree q /\ (q == 3 # 64)%Q) /\
  fst (eval_tokens (to_ctx std_env f_ctx) true (print C55_tree) tt) = Ok (f_of 3 (-6)) /\
  fst (eval_tokens (to_ctx std_env f_ctx) true (print (EBin (lit "+") (ENum (f_div (f_of_Z 1) (f_of_Z 10))) (ENum (f_div (f_of_Z 2) (f_of_Z 10))))) tt) <> Ok (f_div (f_of_Z 3) (f_of_Z 10)).
Proof.
  split; [apply wfb_sound; vm_compute; reflexivity|]. split; [|split; [vm_compute; reflexivity|vm_compute; discriminate]].
  set (p := (dyadic 5 (-1) * (dyadic 1 0 - dyadic 1 (-3)) / dyadic 4 0)%Q). exists (p - dyadic 1 (-1) * inject_Z (truncated (p / dyadic 1 (-1))))%Q. split.
  - apply FV_mod; [apply alike_refl| |apply FV_number; apply of_stands; lia|discriminate].
    apply FV_div; [apply alike_refl| |apply FV_number; apply of_stands; lia|discriminate|apply (double_by 35 (-6)); [lia|lia|vm_compute; reflexivity]].
    apply FV_mul; [apply alike_refl|apply FV_number; apply of_stands; lia| |apply (double_by 35 (-4)); [lia|lia|vm_compute; reflexivity]].
    apply FV_group. apply FV_sub; [apply alike_refl|apply FV_number; apply of_stands; lia|apply FV_number; apply of_stands; lia|apply (double_by 7 (-3)); [lia|lia|vm_compute; reflexivity]].
  - vm_compute. reflexivity.
Qed.
(** [18! = 6402373705728000], [sqrt(94906265 ^ 2) = 94906265], [avg(1, 2.5, -0.25) ] *)
Example C56_case : fact 18 <= 2 ^ 53 /\ fst (apply_unary (to_ctx std_env f_ctx) (lit "!") (f_of_Z 18) tt) = Ok (f_of_Z 6402373705728000) /\
  94906265 * 94906265 <= 2 ^ 53 /\ fst (apply_function (to_ctx std_env f_ctx) (lit "sqrt") [f_of_Z (94906265 * 94906265)] tt) = Ok (f_of_Z 94906265) /\
  fst (apply_function (to_ctx std_env f_ctx) (lit "avg") [f_of_Z 1; f_of 5 (-1); f_of (-1) (-2); f_of_Z 2] tt) = Ok (f_of 21 (-4)) /\
  fst (apply_function (to_ctx std_env f_ctx) (lit "max") [f_of_Z 1; f_of 5 (-1); f_of (-1) (-2)] tt) = Ok (f_of 5 (-1)).
Proof. split; [vm_compute; discriminate|]. split; [vm_compute; reflexivity|]. split; [lia|]. repeat split; vm_compute; reflexivity. Qed.
