(** * The properties of the built-in operators and functions (C25-C30, C43-C47)

    Vocabulary: SpecOps (values of an integer type, exact arithmetic) and SpecExpr ([apply_binary c "+"] etc.: calling
    what the context has registered under a name). [int_num t dbg] is the integer type [t] in a debug or release build,
    [L] the platform's mathematical functions, [rnd] the random source. *)
From Coq Require Import List NArith ZArith Bool Arith Lia String.
From Coq Require Import Floats.SpecFloat.
From Verif Require Import ModelBase ModelContext ModelEvaluator ModelText ModelDefault ModelStr ModelFloat ModelNum ModelOps ModelStd
  SpecExpr SpecTokens SpecText SpecOps ProofText ProofYard ProofRpn ProofDefault ProofBuild ProofCtx ProofOps ProofOps2 ProofOps3 ProofFloat
  ProofTokens2 ProofWf.
Import ListNotations.
Local Open Scope Z_scope.

(** ** C25 *)

(** [+ - *] and negation: the mathematical result if it is a value of the type, else [Overflow]. *)
Theorem C25_ring_operators : forall W t dbg L (rnd : W -> f64 * W) docs E cf d,
  checked_context (int_num t dbg) L rnd docs E dbg cf = Ok d -> forall x y w,
  (exists r, apply_binary (to_ctx E d) (lit "+") x y w = (r, w) /\ exact_or_overflow t (x + y) r) /\
  (exists r, apply_binary (to_ctx E d) (lit "-") x y w = (r, w) /\ exact_or_overflow t (x - y) r) /\
  (exists r, apply_binary (to_ctx E d) (lit "*") x y w = (r, w) /\ exact_or_overflow t (x * y) r) /\
  (exists r, apply_unary (to_ctx E d) (lit "-") x w = (r, w) /\ exact_or_overflow t (- x) r) /\
  apply_unary (to_ctx E d) (lit "+") x w = (Ok x, w).
Proof.
  intros W t dbg L rnd docs E cf d H x y w. rewrite (c_plus_is t dbg L rnd docs E cf d H), (c_minus_is t dbg L rnd docs E cf d H),
    (c_times_is t dbg L rnd docs E cf d H), (c_uminus_is t dbg L rnd docs E cf d H), (c_uplus_is t dbg L rnd docs E cf d H).
  repeat (split; [eexists; split; [reflexivity|apply checked_exact]|]). reflexivity.
Qed.
Print Assumptions C25_ring_operators.

(** [/] and [mod]: [DivisionByZero] for a zero divisor, else the truncated quotient and its remainder if the quotient is
    a value of the type, else [Overflow] (the least value divided by -1, for [mod] too although its remainder is 0). *)
Theorem C25_division : forall W t dbg L (rnd : W -> f64 * W) docs E cf d,
  checked_context (int_num t dbg) L rnd docs E dbg cf = Ok d -> forall x y w,
  (y = 0 -> apply_binary (to_ctx E d) (lit "/") x y w = (Err DivisionByZero, w) /\
            apply_binary (to_ctx E d) (lit "mod") x y w = (Err DivisionByZero, w)) /\
  (y <> 0 -> exists q r, is_quotient x y q r /\
     (fits t q -> apply_binary (to_ctx E d) (lit "/") x y w = (Ok q, w) /\ apply_binary (to_ctx E d) (lit "mod") x y w = (Ok r, w)) /\
     (~ fits t q -> apply_binary (to_ctx E d) (lit "/") x y w = (Err Overflow, w) /\
                    apply_binary (to_ctx E d) (lit "mod") x y w = (Err Overflow, w))).
Proof.
  intros W t dbg L rnd docs E cf d H x y w. rewrite (c_div_is t dbg L rnd docs E cf d H), (c_mod_is t dbg L rnd docs E cf d H). split.
  - intros ->. auto.
  - intros Hy. exists (Z.quot x y), (Z.rem x y). split; [apply quot_spec; exact Hy|]. apply Z.eqb_neq in Hy. rewrite Hy. unfold checked. split; intros F.
    + apply fits_range in F. rewrite F. auto.
    + apply not_fits_range in F. rewrite F. auto.
Qed.
Print Assumptions C25_division.

(** The quotient overflows only for the least value of a signed type divided by -1. *)
Theorem C25_division_overflow : forall t x y q r, 0 < bits t -> fits t x -> fits t y -> is_quotient x y q r -> ~ fits t q ->
  signed t = true /\ x = - 2 ^ (bits t - 1) /\ y = -1.
Proof.
  intros t x y q r Hb Fx Fy (Hx & Hr & H1 & H2) Fq. unfold fits in *. destruct (signed t).
  - split; [reflexivity|]. set (m := 2 ^ (bits t - 1)) in *. assert (0 < m) by (apply Z.pow_pos_nonneg; lia). nia.
  - exfalso. apply Fq. nia.
Qed.
Print Assumptions C25_division_overflow.

(** Whole expressions: the result is [Ok] exactly when every part has a value that fits, and then it is the value of the
    expression over the unbounded integers; otherwise it is [Overflow] or [DivisionByZero]. Never a panic, never a
    wrapped value. *)
Theorem C25_expressions : forall W t dbg L (rnd : W -> f64 * W) docs E cf d,
  checked_context (int_num t dbg) L rnd docs E dbg cf = Ok d -> forall e w,
  wf (to_ctx E d) e -> arithmetic e -> literals_fit t e ->
  (all_fit t e /\ exists v, ideal e = Some v /\ eval_tokens (to_ctx E d) dbg (print e) w = (Ok v, w)) \/
  (~ all_fit t e /\ exists k, In k [Overflow; DivisionByZero] /\ eval_tokens (to_ctx E d) dbg (print e) w = (Err k, w)).
Proof.
  intros W t dbg L rnd docs E cf d H e w Hw Ha Hl. rewrite (eval_tokens_print (to_ctx E d) dbg e w Hw).
  destruct (denote_good t dbg L rnd docs E cf d H e w Ha Hl) as (r & -> & G). destruct r as [v|k|]; simpl in G.
  - left. destruct G as [G1 G2]. eauto.
  - right. destruct G as [G1 G2]. split; [exact G2|]. exists k. split; [|reflexivity]. destruct G1 as [->|G1]; simpl; auto.
  - destruct G.
Qed.
Print Assumptions C25_expressions.

Example C25_case : let e := EBin (lit "-") (ENum 100) (EBin (lit "*") (ENum 7) (EGroup Parenthesis (EBin (lit "/") (ENum (-9)) (ENum 2)))) in
  wf (std_ctx plain_config) e /\ arithmetic e /\ literals_fit i64 e /\ ideal e = Some 128 /\
  eval_tokens (std_ctx plain_config) true (print e) tt = (Ok 128, tt).
Proof.
  intros e. split; [apply wfb_sound; vm_compute; reflexivity|]. split; [simpl; tauto|]. split; [cbn; unfold fits; cbn; lia|]. split; vm_compute; reflexivity.
Qed.
Example C25_overflow : let e := EBin (lit "+") (ENum (2 ^ 63 - 1)) (ENum 1) in ~ all_fit i64 e /\
  eval_tokens (std_ctx plain_config) true (print e) tt = (Err Overflow, tt).
Proof.
  intros e. split; [|vm_compute; reflexivity]. intros [(z & Hz & F) _]. injection Hz as <-. unfold fits in F. cbn in F. lia.
Qed.

(** ** C26 *)

(** Release build: [+ - *] and negation return the value congruent to the result modulo 2^bits. Debug build: the exact
    result, or a panic if it does not fit. *)
Theorem C26_ring_operators : forall W t dbg L (rnd : W -> f64 * W) E cf d,
  unchecked_context (int_num t dbg) L rnd E dbg cf = Ok d -> 0 < bits t -> forall x y w,
  let ok z r := if dbg then (fits t z /\ r = Ok z) \/ (~ fits t z /\ r = Panic) else wrapped t z r in
  (exists r, apply_binary (to_ctx E d) (lit "+") x y w = (r, w) /\ ok (x + y) r) /\
  (exists r, apply_binary (to_ctx E d) (lit "-") x y w = (r, w) /\ ok (x - y) r) /\
  (exists r, apply_binary (to_ctx E d) (lit "*") x y w = (r, w) /\ ok (x * y) r) /\
  (exists r, apply_unary (to_ctx E d) (lit "-") x w = (r, w) /\ ok (- x) r).
Proof.
  intros W t dbg L rnd E cf d H Hb x y w ok. rewrite (u_plus_is t dbg L rnd E cf d H), (u_minus_is t dbg L rnd E cf d H),
    (u_times_is t dbg L rnd E cf d H), (u_uminus_is t dbg L rnd E cf d H).
  assert (G : forall z, ok z (raw t dbg z)).
  { intros z. unfold ok. destruct dbg; [apply raw_debug|]. rewrite raw_release by exact Hb. exists (wrap t z). split; [reflexivity|]. apply wrap_spec. exact Hb. }
  repeat (split; [eexists; split; [reflexivity|apply G]|]). eexists; split; [reflexivity|apply G].
Qed.
Print Assumptions C26_ring_operators.

(** What fits is not changed by wrapping. *)
Theorem C26_wrapped_exact : forall t z r, 0 < bits t -> wrapped t z r -> fits t z -> r = Ok z.
Proof.
  intros t z r Hb (v & -> & Fv & k & Hk) Fz. f_equal. rewrite (wrap_unique t z v Hb Fv (ex_intro _ k Hk)). apply wrap_id; assumption.
Qed.
Print Assumptions C26_wrapped_exact.

Theorem C26_division : forall W t dbg L (rnd : W -> f64 * W) E cf d,
  unchecked_context (int_num t dbg) L rnd E dbg cf = Ok d -> forall x y w,
  (y = 0 -> apply_binary (to_ctx E d) (lit "/") x y w = (Err DivisionByZero, w) /\
            apply_binary (to_ctx E d) (lit "mod") x y w = (Err DivisionByZero, w)) /\
  (y <> 0 -> exists q r, is_quotient x y q r /\
     (fits t q -> apply_binary (to_ctx E d) (lit "/") x y w = (Ok q, w) /\ apply_binary (to_ctx E d) (lit "mod") x y w = (Ok r, w)) /\
     (~ fits t q -> apply_binary (to_ctx E d) (lit "/") x y w = (Panic, w) /\ apply_binary (to_ctx E d) (lit "mod") x y w = (Panic, w))).
Proof.
  intros W t dbg L rnd E cf d H x y w. rewrite (u_div_is t dbg L rnd E cf d H), (u_mod_is t dbg L rnd E cf d H). split.
  - intros ->. auto.
  - intros Hy. exists (Z.quot x y), (Z.rem x y). split; [apply quot_spec; exact Hy|]. apply Z.eqb_neq in Hy. unfold raw_div, raw_rem. rewrite Hy. split; intros F.
    + apply fits_range in F. rewrite F. auto.
    + apply not_fits_range in F. rewrite F. auto.
Qed.
Print Assumptions C26_division.

(** Whole expressions of [+ - *] and signs, release build: the value over the unbounded integers, modulo 2^bits. *)
Theorem C26_expressions_release : forall W t L (rnd : W -> f64 * W) E cf d,
  unchecked_context (int_num t false) L rnd E false cf = Ok d -> 0 < bits t -> forall e w,
  wf (to_ctx E d) e -> ring e -> literals_fit t e ->
  exists z r, ideal e = Some z /\ eval_tokens (to_ctx E d) false (print e) w = (r, w) /\ wrapped t z r.
Proof.
  intros W t L rnd E cf d H Hb e w Hw Hr Hl. rewrite (eval_tokens_print (to_ctx E d) false e w Hw).
  destruct (ring_release t false L rnd E cf d H eq_refl Hb e w Hr Hl) as (z & Hz & ->). exists z, (Ok (wrap t z)). split; [exact Hz|].
  split; [reflexivity|]. exists (wrap t z). split; [reflexivity|]. apply wrap_spec. exact Hb.
Qed.
Print Assumptions C26_expressions_release.

(** Debug build: exact, or a panic when some part does not fit. *)
Theorem C26_expressions_debug : forall W t L (rnd : W -> f64 * W) E cf d,
  unchecked_context (int_num t true) L rnd E true cf = Ok d -> forall e w,
  wf (to_ctx E d) e -> ring e -> literals_fit t e ->
  (all_fit t e /\ exists v, ideal e = Some v /\ eval_tokens (to_ctx E d) true (print e) w = (Ok v, w)) \/
  (~ all_fit t e /\ eval_tokens (to_ctx E d) true (print e) w = (Panic, w)).
Proof.
  intros W t L rnd E cf d H e w Hw Hr Hl. rewrite (eval_tokens_print (to_ctx E d) true e w Hw).
  destruct (ring_debug t true L rnd E cf d H eq_refl e w Hr Hl) as (r & -> & G). destruct r as [v|k|]; simpl in G; [left|destruct G|right].
  - destruct G as [G1 G2]. eauto.
  - auto.
Qed.
Print Assumptions C26_expressions_debug.

Example C26_case : exists d : dctx Z unit, unchecked_context (int_num i8 false) no_libm no_random std_env false plain_config = Ok d /\
  let e := EBin (lit "*") (ENum 100) (EGroup Parenthesis (EBin (lit "+") (ENum 27) (ENum 101))) in
  wfb (to_ctx std_env d) e = true /\ ideal e = Some 12800 /\ eval_tokens (to_ctx std_env d) false (print e) tt = (Ok 0, tt) /\
  eval_tokens (to_ctx std_env d) false (print (EBin (lit "+") (ENum 100) (ENum 28))) tt = (Ok (-128), tt).
Proof.
  exists (unres (unchecked_context (int_num i8 false) no_libm no_random std_env false plain_config) plain_config).
  split; [erewrite unchecked_is by reflexivity; reflexivity|]. vm_compute. repeat split; reflexivity.
Qed.

(** ** C27 *)

(** [sum] and [product]: the exact total if every running total fits, else [Overflow]. *)
Theorem C27_sum_product : forall W t dbg L (rnd : W -> f64 * W) docs E cf d,
  checked_context (int_num t dbg) L rnd docs E dbg cf = Ok d -> forall zs w, zs <> [] -> Forall (fits t) zs ->
  ((forall k, (1 <= k <= List.length zs)%nat -> fits t (sum_first k zs)) ->
     apply_function (to_ctx E d) (lit "sum") zs w = (Ok (sum_first (List.length zs) zs), w)) /\
  (~ (forall k, (1 <= k <= List.length zs)%nat -> fits t (sum_first k zs)) -> apply_function (to_ctx E d) (lit "sum") zs w = (Err Overflow, w)) /\
  ((forall k, (1 <= k <= List.length zs)%nat -> fits t (product_first k zs)) ->
     apply_function (to_ctx E d) (lit "product") zs w = (Ok (product_first (List.length zs) zs), w)) /\
  (~ (forall k, (1 <= k <= List.length zs)%nat -> fits t (product_first k zs)) -> apply_function (to_ctx E d) (lit "product") zs w = (Err Overflow, w)).
Proof.
  intros W t dbg L rnd docs E cf d H zs w Hne Hf. rewrite (c_sum_is t dbg L rnd docs E cf d H), (c_prod_is t dbg L rnd docs E cf d H).
  destruct zs as [|z zs]; [congruence|]. inversion Hf as [|? ? Fz Fzs]; subst.
  unfold c_sum, c_prod, fun_, lift. cbn [fn_call]. unfold sum_first, product_first. rewrite firstn_all. cbn [List.length].
  pose proof (fold_args_none t Z.add 0 Z.add_assoc Z.add_0_l Z.add_0_r z zs Fz) as S.
  pose proof (fold_args_none t Z.mul 1 Z.mul_assoc Z.mul_1_l Z.mul_1_r z zs Fz) as P.
  unfold total in S, P. cbn [n_cadd n_cmul int_num]. split; [|split; [|split]]; intros Hk.
  - destruct S as [[S1 ->]|[(k & Hk1 & S1) S2]]; [reflexivity|]. exfalso. apply S1. apply Hk. exact Hk1.
  - destruct S as [[S1 S2]|[(k & Hk1 & S1) ->]]; [|reflexivity]. exfalso. apply Hk. exact S1.
  - destruct P as [[S1 ->]|[(k & Hk1 & S1) S2]]; [reflexivity|]. exfalso. apply S1. apply Hk. exact Hk1.
  - destruct P as [[S1 S2]|[(k & Hk1 & S1) ->]]; [|reflexivity]. exfalso. apply Hk. exact S1.
Qed.
Print Assumptions C27_sum_product.

(** [avg]: the mean, truncated, if every running total fits; a panic if the number of arguments itself does not fit. *)
Theorem C27_avg : forall W t dbg L (rnd : W -> f64 * W) docs E cf d,
  checked_context (int_num t dbg) L rnd docs E dbg cf = Ok d -> forall zs w, zs <> [] -> Forall (fits t) zs ->
  (forall k, (1 <= k <= List.length zs)%nat -> fits t (sum_first k zs)) ->
  (fits t (Z.of_nat (List.length zs)) -> exists q r, is_quotient (sum_first (List.length zs) zs) (Z.of_nat (List.length zs)) q r /\
     apply_function (to_ctx E d) (lit "avg") zs w = (Ok q, w)) /\
  (~ fits t (Z.of_nat (List.length zs)) -> apply_function (to_ctx E d) (lit "avg") zs w = (Panic, w)).
Proof.
  intros W t dbg L rnd docs E cf d H zs w Hne Hf Hk. rewrite (c_avg_is t dbg L rnd docs E cf d H).
  destruct zs as [|z zs]; [congruence|]. inversion Hf as [|? ? Fz Fzs]; subst.
  unfold c_avg, fun_, lift. cbn [fn_call]. unfold sum_first in *. rewrite firstn_all.
  pose proof (fold_args_none t Z.add 0 Z.add_assoc Z.add_0_l Z.add_0_r z zs Fz) as S. unfold total in S. cbn [n_cadd n_cmul int_num n_from_usize n_cdiv].
  destruct S as [[S1 ->]|[(k & Hk1 & S1) S2]]; [|exfalso; apply S1; apply Hk; exact Hk1]. cbn [rbind].
  set (s := fold_right Z.add 0 (z :: zs)) in *. set (m := Z.of_nat (List.length (z :: zs))) in *. unfold checked. split; intros F.
  - assert (Hm : 0 < m) by (unfold m; cbn [List.length]; lia). exists (Z.quot s m), (Z.rem s m). split; [apply quot_spec; lia|].
    apply fits_range in F. rewrite F. unfold checked_div, checked. replace (m =? 0) with false by (symmetry; apply Z.eqb_neq; lia).
    assert (Fs : fits t s). { specialize (Hk (List.length (z :: zs))). rewrite firstn_all in Hk. apply Hk. cbn [List.length]. lia. }
    assert (Q : (0 <= s /\ 0 <= Z.quot s m <= s) \/ (s <= 0 /\ s <= Z.quot s m <= 0)).
    { destruct (quot_spec s m ltac:(lia)) as (A & B & C1 & C2). destruct (Z.le_ge_cases 0 s); [left|right]; split; auto; nia. }
    assert (Fq : fits t (Z.quot s m)). { unfold fits in *. destruct (signed t); [|lia]. pose proof (Z.pow_nonneg 2 (bits t - 1) ltac:(lia)). lia. }
    apply fits_range in Fq. rewrite Fq. reflexivity.
  - apply not_fits_range in F. rewrite F. reflexivity.
Qed.
Print Assumptions C27_avg.

(** [max] and [min] of two or more arguments: the greatest and the least of them. *)
Theorem C27_max_min : forall W t dbg L (rnd : W -> f64 * W) docs E cf d,
  checked_context (int_num t dbg) L rnd docs E dbg cf = Ok d -> forall zs w,
  ((2 <= List.length zs)%nat ->
     (exists m, apply_function (to_ctx E d) (lit "max") zs w = (Ok m, w) /\ In m zs /\ forall z, In z zs -> z <= m) /\
     (exists m, apply_function (to_ctx E d) (lit "min") zs w = (Ok m, w) /\ In m zs /\ forall z, In z zs -> m <= z)) /\
  ((List.length zs < 2)%nat -> apply_function (to_ctx E d) (lit "max") zs w = (Err InvalidArgumentCount, w) /\
     apply_function (to_ctx E d) (lit "min") zs w = (Err InvalidArgumentCount, w)).
Proof.
  intros W t dbg L rnd docs E cf d H zs w. rewrite (c_max_is t dbg L rnd docs E cf d H), (c_min_is t dbg L rnd docs E cf d H).
  unfold op_max, op_min, fun_, lift. cbn [fn_call]. split; intros Hl.
  - replace (List.length zs <=? 1)%nat with false by (symmetry; apply Nat.leb_gt; lia). destruct zs as [|z zs]; [cbn in Hl; lia|]. cbn [best].
    destruct (best_some (n_gt (int_num t dbg)) Z.le Z.le_refl Z.le_trans) with (zs := zs) (a := z) as (m & Hm & Hin & Hle).
    { intros x a. rewrite n_gt_int. rewrite Z.ltb_lt. lia. } { intros x a. rewrite n_gt_int. rewrite Z.ltb_ge. lia. }
    destruct (best_some (n_lt (int_num t dbg)) Z.ge) with (zs := zs) (a := z) as (m' & Hm' & Hin' & Hle').
    { intros; lia. } { intros; lia. } { intros x a. rewrite n_lt_int. rewrite Z.ltb_lt. lia. } { intros x a. rewrite n_lt_int. rewrite Z.ltb_ge. lia. }
    rewrite Hm, Hm'. split; [exists m; auto|]. exists m'. split; [reflexivity|]. split; [exact Hin'|]. intros y Hy. apply Hle' in Hy. lia.
  - replace (List.length zs <=? 1)%nat with true by (symmetry; apply Nat.leb_le; lia). auto.
Qed.
Print Assumptions C27_max_min.

Theorem C27_abs : forall W t dbg L (rnd : W -> f64 * W) docs E cf d,
  checked_context (int_num t dbg) L rnd docs E dbg cf = Ok d -> forall z w, fits t z ->
  exists r, apply_function (to_ctx E d) (lit "abs") [z] w = (r, w) /\ exact_or_overflow t (Z.abs z) r.
Proof.
  intros W t dbg L rnd docs E cf d H z w Hz. rewrite (c_abs_is t dbg L rnd docs E cf d H). unfold c_abs, fun_, lift. cbn [fn_call].
  rewrite n_ge_int. change (n_zero (int_num t dbg)) with 0. eexists. split; [reflexivity|]. destruct (0 <=? z) eqn:C.
  - apply Z.leb_le in C. rewrite Z.abs_eq by lia. left. auto.
  - apply Z.leb_gt in C. rewrite Z.abs_neq by lia. apply checked_exact.
Qed.
Print Assumptions C27_abs.

Example C27_case : let c := std_ctx plain_config in
  apply_function c (lit "sum") [1; -5; 9] tt = (Ok 5, tt) /\ apply_function c (lit "product") [4; -5] tt = (Ok (-20), tt) /\
  apply_function c (lit "avg") [-5; 2] tt = (Ok (-1), tt) /\ apply_function c (lit "max") [4; 9; -5] tt = (Ok 9, tt) /\
  apply_function c (lit "abs") [- 2 ^ 63] tt = (Err Overflow, tt) /\ apply_function c (lit "sum") [2 ^ 63 - 1; 1; -1] tt = (Err Overflow, tt).
Proof. vm_compute. repeat split; reflexivity. Qed.

(** ** C28 *)

(** Whatever the number type: no operator or function of the checked context panics, except [!] and [avg]. *)
Theorem C28_builtins_never_panic : forall V W (n : num V) L (rnd : W -> f64 * W) docs E dbg cf d,
  checked_context n L rnd docs E dbg cf = Ok d -> forall name w,
  (forall x y, fst (apply_binary (to_ctx E d) name x y w) <> Panic) /\
  (forall x, eq_ignore_case E name (lit "!") = false -> fst (apply_unary (to_ctx E d) name x w) <> Panic) /\
  (forall args, eq_ignore_case E name (lit "avg") = false -> fst (apply_function (to_ctx E d) name args w) <> Panic).
Proof.
  intros V W n L rnd docs E dbg cf d H name w. apply checked_inv in H. destruct H as (p & e & _ & _ & ->).
  unfold apply_binary, apply_unary, apply_function. split; [|split].
  - intros x y. destruct (get_binary _ name) as [f|] eqn:Hf; [|discriminate]. apply found_bin in Hf. eapply checked_bins_calm. apply Hf.
  - intros x Hn. destruct (get_unary _ name) as [f|] eqn:Hf; [|discriminate]. apply found_un in Hf. destruct Hf as [Hi He].
    eapply checked_uns_calm; [exact Hi|]. intros Hx. rewrite Hx in He. congruence.
  - intros args Hn. destruct (get_function _ name) as [f|] eqn:Hf; [|discriminate]. apply found_fun in Hf. destruct Hf as [Hi He].
    apply (checked_calm n L rnd docs f Hi). intros Hx. rewrite Hx in He. congruence.
Qed.
Print Assumptions C28_builtins_never_panic.

(** Hence evaluating any token sequence without them never panics. *)
Theorem C28_eval_never_panics : forall V W (n : num V) L (rnd : W -> f64 * W) docs E dbg cf d,
  checked_context n L rnd docs E dbg cf = Ok d -> forall toks w,
  (forall x, In (TUnary x) toks -> eq_ignore_case E x (lit "!") = false) ->
  (forall x, In (TFunction x) toks -> eq_ignore_case E x (lit "avg") = false) ->
  fst (eval_tokens (to_ctx E d) dbg toks w) <> Panic.
Proof.
  intros V W n L rnd docs E dbg cf d H toks w Hu Hf. pose proof (fun name w => C28_builtins_never_panic V W n L rnd docs E dbg cf d H name w) as C.
  assert (B : forall o, calls_safely (to_ctx E d) (TBinary o)).
  { intros o g x y w' Hg. destruct (C o w') as [C1 _]. specialize (C1 x y). unfold apply_binary in C1. rewrite Hg in C1. exact C1. }
  apply eval_no_panic; [|intros _; apply B]. apply Forall_forall. intros t Ht. destruct t; try exact I; [|apply B|].
  - intros g args w' Hg. destruct (C f w') as (_ & _ & C3). specialize (C3 args (Hf _ Ht)). unfold apply_function in C3. rewrite Hg in C3. exact C3.
  - intros g x w' Hg. destruct (C u w') as (_ & C2 & _). specialize (C2 x (Hu _ Ht)). unfold apply_unary in C2. rewrite Hg in C2. exact C2.
Qed.
Print Assumptions C28_eval_never_panics.

(** The exceptions are real: 21! in a checked [i64] context panics (debug), or wraps (release) ... *)
Theorem C28_factorial_refuted :
  (exists d : dctx Z unit, checked_context (int_num i64 true) no_libm no_random true std_env true plain_config = Ok d /\
     eval_tokens (to_ctx std_env d) true [TNumber 21; TUnary (lit "!")] tt = (Panic, tt)) /\
  (exists d : dctx Z unit, checked_context (int_num i64 false) no_libm no_random true std_env false plain_config = Ok d /\
     exists z, eval_tokens (to_ctx std_env d) false [TNumber 21; TUnary (lit "!")] tt = (Ok z, tt) /\ z < 0).
Proof.
  split; eexists; (split; [erewrite checked_is by reflexivity; reflexivity|]).
  - vm_compute. reflexivity.
  - eexists. split; [vm_compute; reflexivity|]. lia.
Qed.
Print Assumptions C28_factorial_refuted.

(** ... and [avg] of 128 numbers in a checked [i8] context panics, in every build. *)
Theorem C28_avg_refuted : forall dbg, exists d : dctx Z unit, checked_context (int_num i8 dbg) no_libm no_random true std_env dbg plain_config = Ok d /\
  exists zs, Forall (fits i8) zs /\ apply_function (to_ctx std_env d) (lit "avg") zs tt = (Panic, tt).
Proof.
  intros dbg. eexists. split; [erewrite checked_is by reflexivity; reflexivity|]. exists (repeat 0 128). split.
  - apply Forall_forall. intros z Hz. apply repeat_spec in Hz. subst z. unfold fits. cbn. lia.
  - vm_compute. reflexivity.
Qed.
Print Assumptions C28_avg_refuted.

Example C28_case : fst (eval_tokens (std_ctx plain_config) true
  [TFunction (lit "sqrt"); TOpen 40%N; TNumber 16; TClose 41%N; TBinary (lit "/"); TNumber 0] tt) = Err DivisionByZero.
Proof. vm_compute. reflexivity. Qed.

(** ** C29 *)

(** [n!] over machine integers, in the checked and the unchecked context alike. It always returns (or panics): the loop
    ends. It is exact if the factorial fits; if not, a debug build panics and a release build wraps. *)
Theorem C29_factorial : forall W t dbg L (rnd : W -> f64 * W) docs E cf d,
  checked_context (int_num t dbg) L rnd docs E dbg cf = Ok d \/ unchecked_context (int_num t dbg) L rnd E dbg cf = Ok d ->
  2 <= bits t -> forall z w, fits t z ->
  (z < 0 -> apply_unary (to_ctx E d) (lit "!") z w = (Err NegativeValue, w)) /\
  (0 <= z -> fits t (SpecOps.fact (Z.to_nat z)) -> apply_unary (to_ctx E d) (lit "!") z w = (Ok (SpecOps.fact (Z.to_nat z)), w)) /\
  (0 <= z -> ~ fits t (SpecOps.fact (Z.to_nat z)) -> dbg = true -> apply_unary (to_ctx E d) (lit "!") z w = (Panic, w)) /\
  (0 <= z -> dbg = false -> exists r, apply_unary (to_ctx E d) (lit "!") z w = (r, w) /\ wrapped t (SpecOps.fact (Z.to_nat z)) r).
Proof.
  intros W t dbg L rnd docs E cf d H Hb z w Fz.
  assert (A : apply_unary (to_ctx E d) (lit "!") z w = uf_call (op_factorial (int_num t dbg) L) z w).
  { destruct H as [H|H]; [apply (c_fact_is t dbg L rnd docs E cf d H)|apply (u_fact_is t dbg L rnd E cf d H)]. }
  rewrite A. unfold op_factorial, unop, lift. cbn [uf_call]. split; [|split; [|split]].
  - intros Hz. unfold factorial. rewrite n_lt_int. change (n_zero (int_num t dbg)) with 0. apply Z.ltb_lt in Hz. rewrite Hz. reflexivity.
  - intros Hz F. destruct (factorial_int t dbg L Hb z Fz Hz) as (r & -> & H1 & _). rewrite H1 by exact F. reflexivity.
  - intros Hz F Hd. destruct (factorial_int t dbg L Hb z Fz Hz) as (r & -> & _ & H1). rewrite H1 by exact F. rewrite Hd. reflexivity.
  - intros Hz Hd. destruct (factorial_int t dbg L Hb z Fz Hz) as (r & -> & H1 & H2). rewrite Hd in H2. exists r. split; [reflexivity|].
    assert (Hb' : 0 < bits t) by lia. destruct (fits_dec t (SpecOps.fact (Z.to_nat z))) as [F|F].
    + rewrite (H1 F). eexists. split; [reflexivity|]. split; [exact F|]. exists 0. lia.
    + rewrite (H2 F). eexists. split; [reflexivity|]. apply wrap_spec. exact Hb'.
Qed.
Print Assumptions C29_factorial.

(** The loop ends: no turn limit of the model is ever reached. *)
Theorem C29_terminates : forall t dbg L z, 2 <= bits t -> fits t z -> factorial (int_num t dbg) L (n_fuel (int_num t dbg) z) z <> None.
Proof.
  intros t dbg L z Hb Fz. destruct (Z.le_gt_cases 0 z) as [Hz|Hz].
  - destruct (factorial_int t dbg L Hb z Fz Hz) as (r & -> & _). discriminate.
  - unfold factorial. rewrite n_lt_int. change (n_zero (int_num t dbg)) with 0. apply Z.ltb_lt in Hz. rewrite Hz. discriminate.
Qed.
Print Assumptions C29_terminates.

(** Over [f64] it need not: 2^54 minus 1 is 2^54 again, so that no number of turns is enough. *)
Theorem C29_f64_terminates_refuted : exists x : f64, x = f_of_Z (2 ^ 54) /\ forall L fuel0 fuel, factorial (f64_num fuel0) L fuel x = None.
Proof.
  exists (f_of_Z (2 ^ 54)). split; [reflexivity|]. intros L fuel0 fuel. unfold factorial.
  replace (n_lt (f64_num fuel0) (f_of_Z (2 ^ 54)) (n_zero (f64_num fuel0))) with false by (vm_compute; reflexivity).
  replace (n_is_zero (f64_num fuel0) (f_of_Z (2 ^ 54)) || n_is_one (f64_num fuel0) (f_of_Z (2 ^ 54))) with false by (vm_compute; reflexivity).
  replace (n_lt (f64_num fuel0) (f_of_Z (2 ^ 54)) (n_one (f64_num fuel0))) with false by (vm_compute; reflexivity).
  replace (n_sub (f64_num fuel0) (f_of_Z (2 ^ 54)) (n_one (f64_num fuel0))) with (Ok (f_of_Z (2 ^ 54))) by (vm_compute; reflexivity).
  assert (G : forall k tot, fact_loop (f64_num fuel0) k tot (f_of_Z (2 ^ 54)) = None).
  { induction k as [|k IH]; intros tot; cbn [fact_loop];
      replace (n_ge (f64_num fuel0) (f_of_Z (2 ^ 54)) (n_one (f64_num fuel0))) with true by (vm_compute; reflexivity); [reflexivity|].
    cbn [n_mul f64_num]. replace (n_sub (f64_num fuel0) (f_of_Z (2 ^ 54)) (n_one (f64_num fuel0))) with (Ok (f_of_Z (2 ^ 54))) by (vm_compute; reflexivity).
    apply IH. }
  rewrite G. reflexivity.
Qed.
Print Assumptions C29_f64_terminates_refuted.

Example C29_case : fits i64 (SpecOps.fact 20) /\ ~ fits i64 (SpecOps.fact 21) /\
  apply_unary (std_ctx plain_config) (lit "!") 20 tt = (Ok 2432902008176640000, tt) /\ SpecOps.fact 20 = 2432902008176640000.
Proof.
  split; [apply fits_range; vm_compute; reflexivity|]. split; [apply not_fits_range; vm_compute; reflexivity|]. vm_compute. split; reflexivity.
Qed.

(** ** C30 *)

(** [a ^ b] is the double power truncated, if that is a value of the type; else [Overflow]. *)
Theorem C30_power_is_double_power : forall W t dbg L (rnd : W -> f64 * W) docs E cf d,
  checked_context (int_num t dbg) L rnd docs E dbg cf = Ok d -> forall a b w v w',
  apply_binary (to_ctx E d) (lit "^") a b w = (Ok v, w') <-> f_trunc_Z (powf L (f_of_Z a) (f_of_Z b)) = Some v /\ fits t v /\ w' = w.
Proof.
  intros W t dbg L rnd docs E cf d H a b w v w'. rewrite (c_pow_is t dbg L rnd docs E cf d H).
  destruct (f_trunc_Z (powf L (f_of_Z a) (f_of_Z b))) as [z|]; [|split; [discriminate|intros (X & _); discriminate]].
  destruct (checked_cases t z) as [[F ->]|[F ->]].
  - split; [intros X; injection X as <- <-; auto|intros (X & _ & ->); congruence].
  - split; [discriminate|]. intros (X & Y & _). injection X as <-. contradiction.
Qed.
Print Assumptions C30_power_is_double_power.

(** If the platform's power function is exact on integers up to 2^53 whose power is an integer up to 2^53, so is [^]. *)
Definition exact_powf (L : libm) : Prop := forall a b, Z.abs a <= 2 ^ 53 -> 0 <= b <= 2 ^ 53 -> Z.abs (a ^ b) <= 2 ^ 53 ->
  powf L (f_of_Z a) (f_of_Z b) = f_of_Z (a ^ b).
Theorem C30_small_powers_exact : forall W t dbg L (rnd : W -> f64 * W) docs E cf d,
  checked_context (int_num t dbg) L rnd docs E dbg cf = Ok d -> exact_powf L -> forall a b w,
  Z.abs a <= 2 ^ 53 -> 0 <= b <= 2 ^ 53 -> Z.abs (a ^ b) <= 2 ^ 53 -> fits t (a ^ b) ->
  apply_binary (to_ctx E d) (lit "^") a b w = (Ok (a ^ b), w).
Proof.
  intros W t dbg L rnd docs E cf d H HL a b w Ha Hb Hab F. apply (C30_power_is_double_power W t dbg L rnd docs E cf d H).
  rewrite HL by assumption. rewrite trunc_of_Z by exact Hab. auto.
Qed.
Print Assumptions C30_small_powers_exact.
Definition exact_libm : libm := Libm (fun _ x => x)
  (fun x y => match f_trunc_Z x, f_trunc_Z y with Some a, Some b => f_of_Z (a ^ b) | _, _ => S754_nan end) (fun x _ => x) (fun x _ => x).
Example C30_exact_libm : exact_powf exact_libm.
Proof. intros a b Ha Hb Hab. cbn [powf exact_libm]. rewrite !trunc_of_Z by lia. reflexivity. Qed.

(** Beyond 2^53 no odd power can be obtained, whatever double the platform returns: 3^34 fits in an [i64], but is
    never the answer. *)
Theorem C30_odd_powers_wrong : forall W t dbg L (rnd : W -> f64 * W) docs E cf d,
  checked_context (int_num t dbg) L rnd docs E dbg cf = Ok d -> forall a b w,
  valid_binary prec emax (powf L (f_of_Z a) (f_of_Z b)) = true -> 2 ^ 53 < Z.abs (a ^ b) -> Z.odd (a ^ b) = true ->
  fst (apply_binary (to_ctx E d) (lit "^") a b w) <> Ok (a ^ b).
Proof.
  intros W t dbg L rnd docs E cf d H a b w Hv Hl Ho X.
  destruct (apply_binary (to_ctx E d) (lit "^") a b w) as [r w'] eqn:A. cbn [fst] in X. subst r.
  apply (C30_power_is_double_power W t dbg L rnd docs E cf d H) in A. destruct A as (T & _ & _).
  pose proof (double_even _ _ Hv T Hl) as Ev. rewrite <- Z.negb_odd, Ho in Ev. discriminate.
Qed.
Print Assumptions C30_odd_powers_wrong.
Theorem C30_exact_refuted : exists a b, fits i64 (a ^ b) /\ forall W dbg L (rnd : W -> f64 * W) docs E cf d,
  checked_context (int_num i64 dbg) L rnd docs E dbg cf = Ok d -> valid_binary prec emax (powf L (f_of_Z a) (f_of_Z b)) = true ->
  forall w, fst (apply_binary (to_ctx E d) (lit "^") a b w) <> Ok (a ^ b).
Proof.
  exists 3, 34. split; [apply fits_range; vm_compute; reflexivity|]. intros W dbg L rnd docs E cf d H Hv w.
  eapply C30_odd_powers_wrong; try eassumption; vm_compute; reflexivity.
Qed.
Print Assumptions C30_exact_refuted.

(** ** C43 *)

(** The constructors of the default contexts never panic, for integer types of at least three bits and for [f64]. *)
Theorem C43_integer_constructors : forall W t dbg L (rnd : W -> f64 * W) docs E cf, 3 <= bits t ->
  (exists d, checked_context (int_num t dbg) L rnd docs E dbg cf = Ok d) /\ (exists d, unchecked_context (int_num t dbg) L rnd E dbg cf = Ok d).
Proof.
  intros W t dbg L rnd docs E cf Hb.
  assert (P : forall z, 0 <= z <= 3 -> checked t z = Some z).
  { intros z Hz. unfold checked. rewrite (proj2 (fits_range t z)); [reflexivity|]. unfold fits.
    pose proof (Z.pow_le_mono_r 2 2 (bits t - 1) ltac:(lia) ltac:(lia)). pose proof (Z.pow_le_mono_r 2 3 (bits t) ltac:(lia) ltac:(lia)). destruct (signed t); lia. }
  assert (P1 : n_from_f64 (int_num t dbg) f_PI = Some 3).
  { cbn [n_from_f64 int_num]. replace (f_trunc_Z f_PI) with (Some 3) by (vm_compute; reflexivity). apply P. lia. }
  assert (P2 : n_from_f64 (int_num t dbg) f_E = Some 2).
  { cbn [n_from_f64 int_num]. replace (f_trunc_Z f_E) with (Some 2) by (vm_compute; reflexivity). apply P. lia. }
  split; eexists; [apply (checked_is _ L rnd docs E dbg _ _ P1 P2)|apply (unchecked_is _ L rnd E dbg _ _ P1 P2)].
Qed.
Print Assumptions C43_integer_constructors.
Theorem C43_f64_constructors : forall W fuel dbg L (rnd : W -> f64 * W) docs E cf,
  (exists d, checked_context (f64_num fuel) L rnd docs E dbg cf = Ok d) /\ (exists d, unchecked_context (f64_num fuel) L rnd E dbg cf = Ok d).
Proof.
  intros W fuel dbg L rnd docs E cf. split; eexists; [apply (checked_is (f64_num fuel) L rnd docs E dbg f_PI f_E eq_refl eq_refl)|apply (unchecked_is (f64_num fuel) L rnd E dbg f_PI f_E eq_refl eq_refl)].
Qed.
Print Assumptions C43_f64_constructors.

(** The constants, whatever their spelling: PI and E (truncated to 3 and 2 over integers), and no others. *)
Theorem C43_constants : forall V W (n : num V) dbg L (rnd : W -> f64 * W) docs E cf d,
  checked_context n L rnd docs E dbg cf = Ok d \/ unchecked_context n L rnd E dbg cf = Ok d ->
  (forall q, ascii_alike q (lit "pi") -> get_constant (to_ctx E d) q = n_from_f64 n f_PI) /\
  (forall q, ascii_alike q (lit "e") -> get_constant (to_ctx E d) q = n_from_f64 n f_E) /\
  (forall q, eq_ignore_case E q (lit "pi") = false -> eq_ignore_case E q (lit "e") = false -> get_constant (to_ctx E d) q = None) /\
  (forall q, get_variable (to_ctx E d) q = None) /\ cfg (to_ctx E d) = cf.
Proof.
  intros V W n dbg L rnd docs E cf d H.
  assert (I : exists p e, n_from_f64 n f_PI = Some p /\ n_from_f64 n f_E = Some e /\ d_consts d = [(lit "PI", p); (lit "E", e)] /\ d_vars d = [] /\ d_config d = cf).
  { destruct H as [H|H]; [apply checked_inv in H|apply unchecked_inv in H]; destruct H as (p & e & H1 & H2 & ->); exists p, e; auto. }
  destruct I as (p & e & H1 & H2 & Hc & Hv & Hf). cbn [to_ctx get_constant get_variable cfg]. rewrite Hc, Hv, Hf, H1, H2.
  assert (A1 : ascii_alike (lit "pi") (lit "PI")) by (apply fold_alike; reflexivity).
  assert (A2 : ascii_alike (lit "e") (lit "E")) by (apply fold_alike; reflexivity).
  assert (N : names_ok [(lit "PI", p); (lit "E", e)] = true) by reflexivity.
  split; [|split; [|split; [|split; [reflexivity|reflexivity]]]].
  - intros q Hq. apply (mget_in E _ _ (lit "PI") _ _ N); [left; reflexivity|]. eapply alike_trans; eassumption.
  - intros q Hq. apply (mget_in E _ _ (lit "E") _ _ N); [right; left; reflexivity|]. eapply alike_trans; eassumption.
  - intros q Q1 Q2. apply mget_none. assert (G : forall k k', ascii_alike k k' -> eq_ignore_case E q k = false -> key_match E q k' = false).
    { intros k k' Hk Hq. rewrite (key_match_alike E q q k' k) by (try apply alike_refl; apply alike_sym; exact Hk). unfold key_match. rewrite Hq. apply andb_false_r. }
    constructor; [eapply G; eassumption|]. constructor; [eapply G; eassumption|constructor].
Qed.
Print Assumptions C43_constants.
Example C43_case : get_constant (std_ctx plain_config) (lit "Pi") = Some 3 /\ get_constant (std_ctx plain_config) (lit "tau") = None.
Proof. vm_compute. split; reflexivity. Qed.

(** ** C44 *)

(** Over integers [floor], [ceil] and [round] return their argument, if it is at most 2^53 in absolute value. *)
Theorem C44_rounding_small_integers : forall W t dbg L (rnd : W -> f64 * W) docs E cf d,
  checked_context (int_num t dbg) L rnd docs E dbg cf = Ok d -> forall z w, fits t z -> Z.abs z <= 2 ^ 53 ->
  apply_function (to_ctx E d) (lit "floor") [z] w = (Ok z, w) /\ apply_function (to_ctx E d) (lit "ceil") [z] w = (Ok z, w) /\
  apply_function (to_ctx E d) (lit "round") [z] w = (Ok z, w) /\
  apply_function (to_ctx E d) (lit (if docs then "trunc" else "truncate")) [z] w = (Ok z, w).
Proof.
  intros W t dbg L rnd docs E cf d H z w Fz Hz. unfold apply_function.
  rewrite (checked_fun _ L rnd docs E dbg cf d 10%nat _ (lit "floor") H eq_refl (alike_refl _)).
  rewrite (checked_fun _ L rnd docs E dbg cf d 11%nat _ (lit "ceil") H eq_refl (alike_refl _)).
  rewrite (checked_fun _ L rnd docs E dbg cf d 13%nat _ (lit "round") H eq_refl (alike_refl _)).
  rewrite (checked_fun _ L rnd docs E dbg cf d 12%nat _ (lit (if docs then "trunc" else "truncate")) H eq_refl (alike_refl _)).
  destruct (of_Z_finite z Hz) as [N1 N2].
  assert (G : forall name m, m (f_of_Z z) = f_of_Z z -> fn_call (forward (W := W) (int_num t dbg) name m) [z] w = (Ok z, w)).
  { intros name m Hm. unfold forward, fun_, lift, try_to_float. cbn [fn_call n_to_f64 int_num]. rewrite N1, N2. cbn [orb rbind].
    rewrite approx_of_Z, Hm by exact Hz. cbn [n_from_f64 int_num]. rewrite trunc_of_Z by exact Hz. unfold checked. apply fits_range in Fz. rewrite Fz. reflexivity. }
  repeat split; apply G; [apply floor_of_Z|apply ceil_of_Z|apply round_of_Z|apply ftrunc_of_Z]; exact Hz.
Qed.
Print Assumptions C44_rounding_small_integers.

(** Not beyond: the floor of 2^53 + 1 is 2^53 ... *)
Theorem C44_rounding_integers_refuted : exists z, fits i64 z /\ apply_function (std_ctx plain_config) (lit "floor") [z] tt = (Ok (z - 1), tt).
Proof. exists (2 ^ 53 + 1). split; [apply fits_range; reflexivity|]. vm_compute. reflexivity. Qed.
Print Assumptions C44_rounding_integers_refuted.

(** ... and over [f64] the floor of a number may exceed it: arguments within 1e-10 of an integer are first replaced by
    it. The floor of 3 - 2^-40 is 3. *)
Theorem C44_floor_below_refuted : exists x : f64, f_lt x (f_of_Z 3) = true /\ forall W fuel dbg L (rnd : W -> f64 * W) docs E cf d,
  checked_context (f64_num fuel) L rnd docs E dbg cf = Ok d -> forall w, apply_function (to_ctx E d) (lit "floor") [x] w = (Ok (f_of_Z 3), w).
Proof.
  exists (f_of (3 * 2 ^ 40 - 1) (-40)). split; [vm_compute; reflexivity|]. intros W fuel dbg L rnd docs E cf d H w. unfold apply_function.
  rewrite (checked_fun _ L rnd docs E dbg cf d 10%nat _ (lit "floor") H eq_refl (alike_refl _)). unfold op_floor, forward, fun_, lift. cbn [fn_call]. f_equal.
Qed.
Print Assumptions C44_floor_below_refuted.

(** The sign of 0 is 1, not 0. *)
Theorem C44_sign_of_zero_refuted : apply_function (std_ctx plain_config) (lit "signum") [0] tt = (Ok 1, tt) /\
  apply_function (std_ctx plain_config) (lit "signum") [-7] tt = (Ok (-1), tt).
Proof. vm_compute. split; reflexivity. Qed.
Print Assumptions C44_sign_of_zero_refuted.

(** The names under which truncation and sign are found depend on the cargo feature "docs". *)
Theorem C44_names_with_and_without_docs : forall V W (n : num V) dbg L (rnd : W -> f64 * W) docs E cf d,
  checked_context n L rnd docs E dbg cf = Ok d ->
  is_function_name (to_ctx E d) (lit "trunc") = docs /\ is_function_name (to_ctx E d) (lit "truncate") = negb docs /\
  is_function_name (to_ctx E d) (lit "signum") = docs /\ is_function_name (to_ctx E d) (lit "sign") = negb docs.
Proof.
  intros V W n dbg L rnd docs E cf d H. apply checked_inv in H. destruct H as (p & e & _ & _ & ->).
  assert (G : forall q, nameb q = true -> is_function_name (to_ctx E (ctx_of p e (checked_bins n L) (checked_uns n L) (checked_funs n L rnd docs) cf)) q =
    existsb (fun f => str_eqb (low q) (low (fn_name f))) (checked_funs n L rnd docs)).
  { intros q Hq. unfold is_function_name. cbn [to_ctx get_function ctx_of d_funs]. unfold mget.
    assert (N : forall f, In f (checked_funs n L rnd docs) -> nameb (fn_name f) = true).
    { assert (A : forallb (fun f => nameb (fn_name f)) (checked_funs n L rnd docs) = true) by (unfold checked_funs; destruct docs; vm_compute; reflexivity).
      rewrite forallb_forall in A. exact A. }
    induction (checked_funs n L rnd docs) as [|f fs IH]; [reflexivity|]. cbn [map find existsb fst].
    rewrite km_low by (try exact Hq; apply N; left; reflexivity). destruct (str_eqb (low q) (low (fn_name f))); [reflexivity|].
    cbn [orb]. apply IH. intros g Hg. apply N. right. exact Hg. }
  rewrite !G by reflexivity. unfold checked_funs. destruct docs; vm_compute; auto.
Qed.
Print Assumptions C44_names_with_and_without_docs.

(** ** C45 *)

(** For every number type and every function of the checked context: [InvalidArgumentCount] is returned exactly when the
    number of arguments is not one the function accepts. *)
Theorem C45_argument_counts : forall V W (n : num V) L (rnd : W -> f64 * W) docs E dbg cf d,
  checked_context n L rnd docs E dbg cf = Ok d -> forall name f args w, get_function (to_ctx E d) name = Some f ->
  (fst (fn_call f args w) = Err InvalidArgumentCount <-> accepts (fn_name f) (List.length args) = false) /\ eq_ignore_case E name (fn_name f) = true.
Proof.
  intros V W n L rnd docs E dbg cf d H name f args w Hf. apply checked_inv in H. destruct H as (p & e & _ & _ & ->).
  apply found_fun in Hf. destruct Hf as [Hi He]. split; [|exact He]. destruct (str_eqb (fn_name f) (lit "avg")) eqn:Ha.
  - apply str_eqb_eq in Ha. rewrite Ha. change (accepts (lit "avg") (List.length args)) with (1 <=? List.length args)%nat.
    assert (f = c_avg n).
    { unfold checked_funs, common_list in Hi. cbn [In app] in Hi. unfold op_trunc, op_sign in Hi.
      destruct docs; repeat (destruct Hi as [<-|Hi]; [first [reflexivity|exfalso; vm_compute in Ha; discriminate]|]); destruct Hi. }
    subst f. rewrite (proj2 (avg_cases (W := W) n args w)). destruct args; cbn; split; congruence.
  - refine (proj2 (checked_calm n L rnd docs f Hi _ args w)). intros Hx. rewrite Hx in Ha. discriminate.
Qed.
Print Assumptions C45_argument_counts.
Example C45_case : fst (apply_function (std_ctx plain_config) (lit "max") [3] tt) = Err InvalidArgumentCount /\
  fst (apply_function (std_ctx plain_config) (lit "sum") [] tt) = Err InvalidArgumentCount /\ accepts (lit "log") 2 = true /\
  accepts (lit "log") 3 = false /\ accepts (lit "random") 0 = true.
Proof. vm_compute. repeat split; reflexivity. Qed.

(** ** C46 *)
Definition checked_result : list string :=
  ["sin"; "cos"; "tan"; "csc"; "sec"; "cot"; "asin"; "acos"; "atan"; "acsc"; "asec"; "acot"; "asinh"; "acosh"; "atanh"; "acsch"; "asech"; "acoth"; "log"]%string.

Lemma finite_res : forall fuel f v, finite_result (f64_num fuel) f = Ok v -> f_is_nan v = false /\ f_is_infinite v = false.
Proof.
  intros fuel f v H. unfold finite_result in H. destruct (f_is_nan f) eqn:N; [discriminate|]. destruct (f_is_infinite f) eqn:I; [discriminate|].
  cbn in H. injection H as <-. auto.
Qed.
Lemma finite_res_opt : forall fuel o v, finite_result_opt (f64_num fuel) o = Ok v -> f_is_nan v = false /\ f_is_infinite v = false.
Proof. intros fuel [f|] v H; [eapply finite_res; exact H|discriminate]. Qed.

(** Over [f64] these functions never return NaN or an infinity (they fail with [NAN] instead) ... *)
Theorem C46_finite_results : forall W fuel L (rnd : W -> f64 * W) docs E dbg cf d,
  checked_context (f64_num fuel) L rnd docs E dbg cf = Ok d -> forall s args w v w', In s checked_result ->
  apply_function (to_ctx E d) (lit s) args w = (Ok v, w') -> f_is_nan v = false /\ f_is_infinite v = false.
Proof.
  intros W fuel L rnd docs E dbg cf d H s args w v w' Hs A. unfold apply_function in A.
  assert (F : exists i f, nth_error (checked_funs (f64_num fuel) L rnd docs) i = Some f /\ fn_name f = lit s /\
    forall r, fst (fn_call f args w) = Ok r -> f_is_nan r = false /\ f_is_infinite r = false).
  { unfold checked_result in Hs. cbn [In] in Hs.
    assert (one : forall name g, (forall x r, g x = Ok r -> f_is_nan r = false /\ f_is_infinite r = false) ->
      forall r, fst (fn_call (fun_ (W := W) name (one_arg g)) args w) = Ok r -> f_is_nan r = false /\ f_is_infinite r = false).
    { intros name g Hg r Hr. destruct args as [|x [|y a]]; try discriminate. apply (Hg x). exact Hr. }
    repeat (destruct Hs as [<-|Hs]; [|]); try destruct Hs.
    - exists 18%nat. eexists. split; [reflexivity|]. split; [reflexivity|]. apply one. intros x. apply finite_res_opt.
    - exists 19%nat. eexists. split; [reflexivity|]. split; [reflexivity|]. apply one. intros x. apply finite_res_opt.
    - exists 20%nat. eexists. split; [reflexivity|]. split; [reflexivity|]. apply one. intros x. apply finite_res_opt.
    - exists 21%nat. eexists. split; [reflexivity|]. split; [reflexivity|]. apply one. intros x. apply finite_res_opt.
    - exists 22%nat. eexists. split; [reflexivity|]. split; [reflexivity|]. apply one. intros x. apply finite_res_opt.
    - exists 23%nat. eexists. split; [reflexivity|]. split; [reflexivity|]. apply one. intros x. apply finite_res_opt.
    - exists 24%nat. eexists. split; [reflexivity|]. split; [reflexivity|]. apply one. intros x. apply finite_res_opt.
    - exists 25%nat. eexists. split; [reflexivity|]. split; [reflexivity|]. apply one. intros x. apply finite_res_opt.
    - exists 26%nat. eexists. split; [reflexivity|]. split; [reflexivity|]. intros r Hr. unfold op_atan, fun_, lift in Hr. cbn [fn_call fst] in Hr.
      destruct args as [|x [|y [|z a]]]; try discriminate; [eapply finite_res_opt; exact Hr|]. cbn [n_to_f64 f64_num] in Hr.
      destruct (_ && _); [discriminate|]. eapply finite_res; exact Hr.
    - exists 27%nat. eexists. split; [reflexivity|]. split; [reflexivity|]. apply one. intros x. apply finite_res_opt.
    - exists 28%nat. eexists. split; [reflexivity|]. split; [reflexivity|]. apply one. intros x. apply finite_res_opt.
    - exists 29%nat. eexists. split; [reflexivity|]. split; [reflexivity|]. apply one. intros x. apply finite_res_opt.
    - exists 36%nat. eexists. split; [reflexivity|]. split; [reflexivity|]. apply one. intros x. apply finite_res_opt.
    - exists 37%nat. eexists. split; [reflexivity|]. split; [reflexivity|]. apply one. intros x. apply finite_res_opt.
    - exists 38%nat. eexists. split; [reflexivity|]. split; [reflexivity|]. apply one. intros x. apply finite_res_opt.
    - exists 39%nat. eexists. split; [reflexivity|]. split; [reflexivity|]. apply one. intros x. apply finite_res_opt.
    - exists 40%nat. eexists. split; [reflexivity|]. split; [reflexivity|]. apply one. intros x. apply finite_res_opt.
    - exists 41%nat. eexists. split; [reflexivity|]. split; [reflexivity|]. apply one. intros x. apply finite_res_opt.
    - exists 8%nat. eexists. split; [reflexivity|]. split; [reflexivity|]. intros r Hr. unfold op_log, fun_, lift in Hr. cbn [fn_call fst] in Hr.
      destruct args as [|x [|y [|z a]]]; try discriminate; [eapply finite_res_opt; exact Hr|]. cbn [n_to_f64 f64_num] in Hr. eapply finite_res; exact Hr. }
  destruct F as (i & f & Hi & Hn & Hf). rewrite (checked_fun _ L rnd docs E dbg cf d i f (lit s) H Hi) in A by (rewrite Hn; apply alike_refl).
  apply Hf. rewrite A. reflexivity.
Qed.
Print Assumptions C46_finite_results.

(** ... but others do: the square root of -1 is NaN, and a sum of finite numbers can be infinite. *)
Theorem C46_all_finite_refuted : exists x y : f64, f_is_nan x = false /\ f_is_infinite x = false /\ f_is_infinite y = false /\
  forall W fuel L (rnd : W -> f64 * W) docs E dbg cf d, checked_context (f64_num fuel) L rnd docs E dbg cf = Ok d -> forall w,
  apply_function (to_ctx E d) (lit "sqrt") [x] w = (Ok S754_nan, w) /\
  apply_binary (to_ctx E d) (lit "+") y y w = (Ok (S754_infinity false), w).
Proof.
  exists (f_of_Z (-1)), (f_of 1 1023). repeat (split; [vm_compute; reflexivity|]). intros W fuel L rnd docs E dbg cf d H w.
  unfold apply_function, apply_binary. rewrite (checked_fun _ L rnd docs E dbg cf d 6%nat _ (lit "sqrt") H eq_refl (alike_refl _)).
  rewrite (checked_bin _ L rnd docs E dbg cf d 0%nat _ (lit "+") H eq_refl (alike_refl _)).
  unfold op_sqrt, forward, c_add, binop, fun_, lift. cbn [fn_call bf_call]. split; f_equal; vm_compute; reflexivity.
Qed.
Print Assumptions C46_all_finite_refuted.

(** ** C47 *)

(** Only [random] has effects: an expression that does not call it has one result, whatever the state of the world. *)
Theorem C47_deterministic : forall V W (n : num V) L (rnd : W -> f64 * W) docs E dbg cf d,
  checked_context n L rnd docs E dbg cf = Ok d \/ unchecked_context n L rnd E dbg cf = Ok d -> forall toks,
  (forall x, In (TFunction x) toks -> eq_ignore_case E x (lit "random") = false) ->
  exists r, forall w, eval_tokens (to_ctx E d) dbg toks w = (r, w).
Proof.
  intros V W n L rnd docs E dbg cf d H toks Hr. apply pure_eval.
  - apply Forall_forall. intros t Ht. destruct t; try exact I; intros g.
    + intros args Hg. destruct H as [H|H]; [apply checked_inv in H|apply unchecked_inv in H]; destruct H as (p & e & _ & _ & ->); apply found_fun in Hg; destruct Hg as [Hi He];
        [eapply checked_pure_fun|eapply unchecked_pure_fun]; try exact Hi; intros Hx; rewrite Hx, (Hr _ Ht) in He; discriminate.
    + intros v v' Hg. destruct H as [H|H]; [apply checked_inv in H|apply unchecked_inv in H]; destruct H as (p & e & _ & _ & ->); apply found_bin in Hg; destruct Hg as [Hi He];
        [eapply checked_pure_bin|eapply unchecked_pure_bin]; exact Hi.
    + intros v Hg. destruct H as [H|H]; [apply checked_inv in H|apply unchecked_inv in H]; destruct H as (p & e & _ & _ & ->); apply found_un in Hg; destruct Hg as [Hi He];
        [eapply checked_pure_un|eapply unchecked_pure_un]; exact Hi.
  - intros _ g v v' Hg. destruct H as [H|H]; [apply checked_inv in H|apply unchecked_inv in H]; destruct H as (p & e & _ & _ & ->); apply found_bin in Hg; destruct Hg as [Hi He];
        [eapply checked_pure_bin|eapply unchecked_pure_bin]; exact Hi.
Qed.
Print Assumptions C47_deterministic.
