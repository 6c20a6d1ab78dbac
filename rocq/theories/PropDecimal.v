(** * The properties of decimal contexts (C33, C49-C53)

    Vocabulary: SpecDecimal ([exact_decimals]: what rust_decimal provides; [representable], [limit], [decimal_outcome],
    [decimal_value]). The context is that of [DefaultContext::with_config_decimal]; [fuel] bounds the loops of the code
    that have no bound of their own. *)
From Coq Require Import List NArith ZArith QArith Qabs Qround Qpower Bool Lia Lqa String.
From Verif Require Import ModelBase ModelContext ModelEvaluator ModelText ModelDefault ModelFloat ModelNum ModelOps ModelStd ModelDecimal
  SpecText SpecExpr SpecOps SpecDecimal ProofText ProofDefault ProofRpn ProofBuild ProofCtx ProofWf ProofDecRef ProofDecimal ProofDecimal2.
Import ListNotations.
Local Open Scope Z_scope.

(** The reference implementation of decimals, which meets [exact_decimals] (ProofDecRef.ref_exact), and a context with it. *)
Definition ref_d : dctx dec unit := unres (decimal_context ref_lib 200 no_random std_env true implicit_config) plain_config.
Definition ref_ctx : ctx dec unit := to_ctx std_env ref_d.
Definition num (c s : Z) : dec := mk0 c s.
Definition shown (m : res dec * unit) : res Q := match fst m with Ok x => Ok (Qred (val x)) | Err k => Err k | Panic => Panic end.
Lemma ref_is : decimal_context ref_lib 200 no_random std_env true implicit_config = Ok ref_d.
Proof. unfold ref_d. rewrite decimal_is. reflexivity. Qed.

(** ** C49: arithmetic *)

Theorem C49_constructor : forall D W (L : dlib D) fuel (rnd : W -> f64 * W) E dbg cf, exists d, decimal_context L fuel rnd E dbg cf = Ok d.
Proof. intros. eexists. apply decimal_is. Qed.
Print Assumptions C49_constructor.

(** The operators are exact whenever the exact result is a decimal number, [Overflow] if it is out of range, and never panic. *)
Theorem C49_operators : forall D W (L : dlib D) value, exact_decimals L value -> forall fuel (rnd : W -> f64 * W) E dbg cf d, decimal_context L fuel rnd E dbg cf = Ok d ->
  forall q x y w,
  (ascii_alike q (lit "+") -> exists r, apply_binary (to_ctx E d) q x y w = (r, w) /\ decimal_outcome value (value x + value y) r) /\
  (ascii_alike q (lit "-") -> exists r, apply_binary (to_ctx E d) q x y w = (r, w) /\ decimal_outcome value (value x - value y) r) /\
  (ascii_alike q (lit "*") -> exists r, apply_binary (to_ctx E d) q x y w = (r, w) /\ decimal_outcome value (value x * value y) r) /\
  (ascii_alike q (lit "/") -> ~ (value y == 0)%Q -> exists r, apply_binary (to_ctx E d) q x y w = (r, w) /\ decimal_outcome value (value x / value y) r) /\
  (ascii_alike q (lit "mod") -> ~ (value y == 0)%Q -> exists z, apply_binary (to_ctx E d) q x y w = (Ok z, w) /\
     (value z == value x - value y * inject_Z (truncated (value x / value y)))%Q) /\
  (ascii_alike q (lit "+") -> apply_unary (to_ctx E d) q x w = (Ok x, w)) /\
  (ascii_alike q (lit "-") -> exists z, apply_unary (to_ctx E d) q x w = (Ok z, w) /\ (value z == - value x)%Q).
Proof.
  intros D W L value EX fuel rnd E dbg cf d Hd q x y w. unfold apply_binary, apply_unary. repeat match goal with |- _ /\ _ => split end; intros Hq; try intros Hy.
  - rewrite (dec_bin L fuel rnd E dbg cf d Hd 0 (x_add L) q eq_refl Hq). eexists. split; [reflexivity|]. apply outcome_of. apply (ed_add _ _ EX).
  - rewrite (dec_bin L fuel rnd E dbg cf d Hd 1 (x_sub L) q eq_refl Hq). eexists. split; [reflexivity|]. apply outcome_of. apply (ed_sub _ _ EX).
  - rewrite (dec_bin L fuel rnd E dbg cf d Hd 2 (x_mul L) q eq_refl Hq). eexists. split; [reflexivity|]. apply outcome_of. apply (ed_mul _ _ EX).
  - rewrite (dec_bin L fuel rnd E dbg cf d Hd 3 (x_div L) q eq_refl Hq). eexists. split; [reflexivity|]. apply outcome_of. apply (ed_div _ _ EX). exact Hy.
  - rewrite (dec_bin L fuel rnd E dbg cf d Hd 5 (x_mod L) q eq_refl Hq). destruct (ed_rem _ _ EX x y Hy) as (z & Z1 & Z2). exists z. split; [|exact Z2].
    cbn [x_mod binop bf_call]. unfold lift. rewrite Z1. reflexivity.
  - rewrite (dec_un L fuel rnd E dbg cf d Hd 0 op_plus q eq_refl Hq). reflexivity.
  - rewrite (dec_un L fuel rnd E dbg cf d Hd 1 (x_neg L) q eq_refl Hq). eexists. split; [reflexivity|]. apply (ed_neg _ _ EX).
Qed.
Print Assumptions C49_operators.

(** Division by zero is an error, but it is reported as [Overflow], not [DivisionByZero] as in the other contexts. *)
Theorem C49_division_by_zero_refuted : forall D W (L : dlib D) value, exact_decimals L value -> forall fuel (rnd : W -> f64 * W) E dbg cf d, decimal_context L fuel rnd E dbg cf = Ok d ->
  forall x y w, (value y == 0)%Q -> apply_binary (to_ctx E d) (lit "/") x y w = (Err Overflow, w) /\ apply_binary (to_ctx E d) (lit "mod") x y w = (Err Overflow, w).
Proof.
  intros D W L value EX fuel rnd E dbg cf d Hd x y w Hy. unfold apply_binary.
  rewrite (dec_bin L fuel rnd E dbg cf d Hd 3 (x_div L) (lit "/") eq_refl (alike_refl _)), (dec_bin L fuel rnd E dbg cf d Hd 5 (x_mod L) (lit "mod") eq_refl (alike_refl _)).
  cbn [x_div x_mod binop bf_call]. unfold lift. rewrite (ed_div_zero _ _ EX x y Hy), (ed_rem_zero _ _ EX x y Hy). split; reflexivity.
Qed.
Print Assumptions C49_division_by_zero_refuted.

(** An expression that has a value, with all its parts representable, evaluates to exactly that value. *)
Theorem C49_expressions : forall D W (L : dlib D) value, exact_decimals L value -> forall fuel (rnd : W -> f64 * W) E dbg cf d, decimal_context L fuel rnd E dbg cf = Ok d ->
  forall e q w, wf (to_ctx E d) e -> decimal_value value e q -> exists y, eval_tokens (to_ctx E d) dbg (print e) w = (Ok y, w) /\ (value y == q)%Q.
Proof.
  intros D W L value EX fuel rnd E dbg cf d Hd e q w Hw Hv. rewrite eval_tokens_print by exact Hw. clear Hw. revert w.
  assert (B : forall o l r x y q (Hop : forall a b, (value a == x)%Q -> (value b == y)%Q -> forall w, exists z, apply_binary (to_ctx E d) o a b w = (Ok z, w) /\ (value z == q)%Q),
    (forall w, exists a, denote (to_ctx E d) l w = (Ok a, w) /\ (value a == x)%Q) -> (forall w, exists b, denote (to_ctx E d) r w = (Ok b, w) /\ (value b == y)%Q) ->
    forall w, exists z, bind (denote (to_ctx E d) l) (fun x => bind (denote (to_ctx E d) r) (fun y => apply_binary (to_ctx E d) o x y)) w = (Ok z, w) /\ (value z == q)%Q).
  { intros o l r x y q0 Hop Hl Hr w. destruct (Hl w) as (a & A1 & A2), (Hr w) as (b & B1 & B2). unfold bind. rewrite A1, B1. apply Hop; assumption. }
  assert (X : forall o x y a b q r w, (q == x)%Q -> representable q -> apply_binary (to_ctx E d) o a b w = (r, w) -> (x == y)%Q -> decimal_outcome value y r ->
    exists z, apply_binary (to_ctx E d) o a b w = (Ok z, w) /\ (value z == q)%Q).
  { intros o x y a b q0 r w H1 H2 H3 H4 (H5 & _). destruct H5 as (z & -> & Z); [apply (rep_comp q0); [rewrite H1; exact H4|exact H2]|]. exists z. split; [exact H3|]. rewrite Z, H1, H4. reflexivity. }
  induction Hv as [x q Hx|g e q Hv IH|u e q Hu Hv IH|u e q q' Hu Hv IH Hq|o l r x y q Ho Hl IHl Hr IHr Hq Rq|o l r x y q Ho Hl IHl Hr IHr Hq Rq|o l r x y q Ho Hl IHl Hr IHr Hq Rq|l r x y q Hl IHl Hr IHr Hq Rq|o l r x y q Ho Hl IHl Hr IHr Hy Hq Rq|o l r x y q Ho Hl IHl Hr IHr Hy Hq];
  cbn [denote].
  - intros w. exists x. split; [reflexivity|exact Hx].
  - exact IH.
  - intros w. destruct (IH w) as (a & A1 & A2). unfold bind. rewrite A1. exists a. split; [|exact A2].
    destruct (C49_operators D W L value EX fuel rnd E dbg cf d Hd u a a w) as (_ & _ & _ & _ & _ & P & _). apply P. exact Hu.
  - intros w. destruct (IH w) as (a & A1 & A2). unfold bind. rewrite A1.
    destruct (C49_operators D W L value EX fuel rnd E dbg cf d Hd u a a w) as (_ & _ & _ & _ & _ & _ & P). destruct (P Hu) as (z & Z1 & Z2). exists z. split; [exact Z1|]. rewrite Z2, A2, Hq. reflexivity.
  - apply (B o l r x y q); try assumption. intros a b Ha Hb w. destruct (C49_operators D W L value EX fuel rnd E dbg cf d Hd o a b w) as (P & _).
    destruct (P Ho) as (res & R1 & R2). eapply X; [exact Hq|exact Rq|exact R1| |exact R2]. rewrite Ha, Hb. reflexivity.
  - apply (B o l r x y q); try assumption. intros a b Ha Hb w. destruct (C49_operators D W L value EX fuel rnd E dbg cf d Hd o a b w) as (_ & P & _).
    destruct (P Ho) as (res & R1 & R2). eapply X; [exact Hq|exact Rq|exact R1| |exact R2]. rewrite Ha, Hb. reflexivity.
  - apply (B o l r x y q); try assumption. intros a b Ha Hb w. destruct (C49_operators D W L value EX fuel rnd E dbg cf d Hd o a b w) as (_ & _ & P & _).
    destruct (P Ho) as (res & R1 & R2). eapply X; [exact Hq|exact Rq|exact R1| |exact R2]. rewrite Ha, Hb. reflexivity.
  - apply (B times l r x y q); try assumption. intros a b Ha Hb w. destruct (C49_operators D W L value EX fuel rnd E dbg cf d Hd times a b w) as (_ & _ & P & _).
    destruct (P (alike_refl _)) as (res & R1 & R2). eapply X; [exact Hq|exact Rq|exact R1| |exact R2]. rewrite Ha, Hb. reflexivity.
  - apply (B o l r x y q); try assumption. intros a b Ha Hb w. destruct (C49_operators D W L value EX fuel rnd E dbg cf d Hd o a b w) as (_ & _ & _ & P & _).
    destruct (P Ho) as (res & R1 & R2); [rewrite Hb; exact Hy|]. eapply X; [exact Hq|exact Rq|exact R1| |exact R2]. rewrite Ha, Hb. reflexivity.
  - apply (B o l r x y q); try assumption. intros a b Ha Hb w. destruct (C49_operators D W L value EX fuel rnd E dbg cf d Hd o a b w) as (_ & _ & _ & _ & P & _).
    destruct (P Ho) as (z & Z1 & Z2); [rewrite Hb; exact Hy|]. exists z. split; [exact Z1|]. rewrite Z2, Hq.
    rewrite (truncated_comp (value a / value b) (x / y)) by (rewrite Ha, Hb; reflexivity). rewrite Ha, Hb. reflexivity.
Qed.
Print Assumptions C49_expressions.

(** [0.1 + 0.2 * 3 - 7 / 8 = -0.175], exactly, unlike with floats. *)
Definition C49_tree : expr dec := EBin (lit "-") (EBin (lit "+") (ENum (num 1 1)) (EBin (lit "*") (ENum (num 2 1)) (ENum (num 3 0)))) (EBin (lit "/") (ENum (num 7 0)) (ENum (num 8 0))).
Lemma rep_by : forall c s q, 0 <= s <= 28 -> Z.abs c < limit -> (q * inject_Z (10 ^ s) == inject_Z c)%Q -> representable q.
Proof. intros c s q A B C. exists c, s. auto. Qed.
Example C49_case : wf ref_ctx C49_tree /\ decimal_value val C49_tree (-175 # 1000) /\ shown (eval_tokens ref_ctx true (print C49_tree) tt) = Ok (-7 # 40)%Q /\
  shown (apply_binary ref_ctx (lit "/") (num 1 0) (num 3 0) tt) = Ok (3333333333333333333333333333 # 10000000000000000000000000000)%Q /\
  shown (apply_binary ref_ctx (lit "/") (num 1 0) (num 0 0) tt) = Err Overflow.
Proof.
  split; [apply wfb_sound; vm_compute; reflexivity|]. split.
  { eapply DV_sub with (x := 7 # 10) (y := 7 # 8); [apply alike_refl| | |reflexivity|apply (rep_by (-175) 3); [lia|reflexivity|reflexivity]].
    - eapply DV_add with (x := 1 # 10) (y := 6 # 10); [apply alike_refl|apply DV_number; vm_compute; reflexivity| |reflexivity|apply (rep_by 7 1); [lia|reflexivity|reflexivity]].
      eapply DV_mul with (x := 2 # 10) (y := 3 # 1); [apply alike_refl|apply DV_number; vm_compute; reflexivity|apply DV_number; vm_compute; reflexivity|reflexivity|apply (rep_by 6 1); [lia|reflexivity|reflexivity]].
    - eapply DV_div with (x := 7 # 1) (y := 8 # 1); [apply alike_refl|apply DV_number; vm_compute; reflexivity|apply DV_number; vm_compute; reflexivity|discriminate|reflexivity|apply (rep_by 875 3); [lia|reflexivity|reflexivity]]. }
  split; [vm_compute; reflexivity|]. split; vm_compute; reflexivity.
Qed.

(** ** C33: powers *)
Lemma pow_is : forall D W (L : dlib D) fuel (rnd : W -> f64 * W) E dbg cf d, decimal_context L fuel rnd E dbg cf = Ok d ->
  forall x e w, apply_binary (to_ctx E d) (lit "^") x e w = (pow_of L fuel x e, w).
Proof. intros D W L fuel rnd E dbg cf d Hd x e w. unfold apply_binary. rewrite (dec_bin L fuel rnd E dbg cf d Hd 4 (x_pow L fuel) (lit "^") eq_refl (alike_refl _)). reflexivity. Qed.

(** An integer to an integer power from 2 on: the loop squares the base once more than it needs, so the power is returned
    exactly if the base to the next power of two above the exponent is in range, else it is [Overflow]. *)
Theorem C33_integer_powers : forall D W (L : dlib D) value, exact_decimals L value -> forall fuel (rnd : W -> f64 * W) E dbg cf d, decimal_context L fuel rnd E dbg cf = Ok d ->
  forall x e z n w, (value x == inject_Z z)%Q -> (value e == inject_Z n)%Q -> 2 <= n < 2 ^ 63 ->
  (Z.abs z ^ (2 ^ (Z.log2 n + 1)) < limit -> exists y, apply_binary (to_ctx E d) (lit "^") x e w = (Ok y, w) /\ (value y == inject_Z (z ^ n))%Q) /\
  (limit <= Z.abs z ^ (2 ^ (Z.log2 n + 1)) -> apply_binary (to_ctx E d) (lit "^") x e w = (Err Overflow, w)).
Proof.
  intros D W L value EX fuel rnd E dbg cf d Hd x e z n w Hx He Hn. rewrite (pow_is D W L fuel rnd E dbg cf d Hd).
  destruct (pow_int L value EX fuel x e z n Hx He Hn) as [A B]. split; intros H; [destruct (A H) as (y & -> & Y); exists y; auto|rewrite (B H); reflexivity].
Qed.
Print Assumptions C33_integer_powers.

(** Any base: the exact power if the powers of the base are representable that far; also for negative exponents, by 1/base. *)
Theorem C33_exact_powers : forall D W (L : dlib D) value, exact_decimals L value -> forall fuel (rnd : W -> f64 * W) E dbg cf d, decimal_context L fuel rnd E dbg cf = Ok d ->
  forall x e n w, 
  ((value e == 0)%Q -> exists y, apply_binary (to_ctx E d) (lit "^") x e w = (Ok y, w) /\ (value y == 1)%Q) /\
  ((value e == 1)%Q -> apply_binary (to_ctx E d) (lit "^") x e w = (Ok x, w)) /\
  ((value e == inject_Z n)%Q -> 2 <= n < 2 ^ 63 -> (forall j, 0 <= j <= 2 ^ (Z.log2 n + 1) -> representable (value x ^ j)%Q) ->
     exists y, apply_binary (to_ctx E d) (lit "^") x e w = (Ok y, w) /\ (value y == value x ^ n)%Q) /\
  ((value e == inject_Z (- n))%Q -> 1 <= n < 2 ^ 63 -> ~ (value x == 0)%Q -> (forall j, 0 <= j <= 2 ^ (Z.log2 n + 1) -> representable ((1 / value x) ^ j)%Q) ->
     exists y, apply_binary (to_ctx E d) (lit "^") x e w = (Ok y, w) /\ (value y == value x ^ (- n))%Q).
Proof.
  intros D W L value EX fuel rnd E dbg cf d Hd x e n w. rewrite (pow_is D W L fuel rnd E dbg cf d Hd). repeat match goal with |- _ /\ _ => split end; intros He.
  - rewrite (proj1 (pow_0_1 L value EX fuel x e 0 He) eq_refl). eexists. split; [reflexivity|]. apply (one_val L value EX).
  - rewrite (proj2 (pow_0_1 L value EX fuel x e 1 He) eq_refl). reflexivity.
  - intros Hn HR. destruct (pow_exact L value EX fuel x e n He Hn HR) as (y & -> & Y). exists y. auto.
  - intros Hn Hx HR. destruct (pow_neg L value EX fuel x e n He Hn Hx HR) as (y & -> & Y). exists y. auto.
Qed.
Print Assumptions C33_exact_powers.

(** Three faults: spurious overflow, panics, and a wrong value of [0 ^ 0.5]. *)
Theorem C33_powers_refuted : forall D W (L : dlib D) value, exact_decimals L value -> forall fuel (rnd : W -> f64 * W) E dbg cf d, decimal_context L fuel rnd E dbg cf = Ok d ->
  forall x e w,
  (* the square of a billion is a number of 19 digits *)
  (representable (inject_Z ((10 ^ 9) ^ 2)) /\ ((value x == inject_Z (10 ^ 9))%Q -> (value e == 2)%Q -> apply_binary (to_ctx E d) (lit "^") x e w = (Err Overflow, w))) /\
  (forall n, (value e == inject_Z n)%Q -> ~ - 2 ^ 63 < n < 2 ^ 63 -> apply_binary (to_ctx E d) (lit "^") x e w = (Panic, w)) /\
  (forall n, (value e == inject_Z n)%Q -> n < 0 -> (value x == 0)%Q -> apply_binary (to_ctx E d) (lit "^") x e w = (Panic, w)) /\
  ((forall n, ~ (value e == inject_Z n)%Q) -> (value x == 0)%Q -> exists y, apply_binary (to_ctx E d) (lit "^") x e w = (Ok y, w) /\ (value y == 1)%Q).
Proof.
  intros D W L value EX fuel rnd E dbg cf d Hd x e w. split; [split|split; [|split]].
  - apply int_rep. reflexivity.
  - intros Hx He. apply (proj2 (C33_integer_powers D W L value EX fuel rnd E dbg cf d Hd x e (10 ^ 9) 2 w Hx He ltac:(lia))). vm_compute. discriminate.
  - intros n He Hn. rewrite (pow_is D W L fuel rnd E dbg cf d Hd), (pow_outside L value EX fuel x e n He Hn). reflexivity.
  - intros n He Hn Hx. rewrite (pow_is D W L fuel rnd E dbg cf d Hd), (pow_neg_zero L value EX fuel x e (- n)); [reflexivity|rewrite Z.opp_involutive; exact He|lia|exact Hx].
  - intros He Hx. rewrite (pow_is D W L fuel rnd E dbg cf d Hd), (proj1 (pow_fraction L value EX fuel x e He) Hx). eexists. split; [reflexivity|]. apply (one_val L value EX).
Qed.
Print Assumptions C33_powers_refuted.

(** Fractional powers of negative numbers are [Overflow], of 1 are 1. *)
Theorem C33_fractional_powers : forall D W (L : dlib D) value, exact_decimals L value -> forall fuel (rnd : W -> f64 * W) E dbg cf d, decimal_context L fuel rnd E dbg cf = Ok d ->
  forall x e w, (forall n, ~ (value e == inject_Z n)%Q) ->
  ((value x < 0)%Q -> apply_binary (to_ctx E d) (lit "^") x e w = (Err Overflow, w)) /\ ((value x == 1)%Q -> apply_binary (to_ctx E d) (lit "^") x e w = (Ok x, w)).
Proof.
  intros D W L value EX fuel rnd E dbg cf d Hd x e w He. rewrite (pow_is D W L fuel rnd E dbg cf d Hd). destruct (pow_fraction L value EX fuel x e He) as (_ & A & B).
  split; intros H; [rewrite (B H)|rewrite (A H)]; reflexivity.
Qed.
Print Assumptions C33_fractional_powers.

Definition ref_pow (a s b t : Z) : res Q := shown (apply_binary ref_ctx (lit "^") (num a s) (num b t) tt).
Example C33_case : exact_decimals ref_lib val /\ ref_pow 3 0 20 0 = Ok (3486784401 # 1)%Q /\ ref_pow 2 0 63 0 = Ok (9223372036854775808 # 1)%Q /\ ref_pow 2 0 64 0 = Err Overflow /\
  ref_pow (-15) 1 3 0 = Ok (-27 # 8)%Q /\ ref_pow 4 0 (-3) 0 = Ok (1 # 64)%Q /\ ref_pow 1000000000 0 2 0 = Err Overflow /\ ref_pow 2 0 10000000000000000000 0 = Panic /\
  ref_pow 0 0 (-1) 0 = Panic /\ ref_pow 0 0 5 1 = Ok 1%Q /\ ref_pow (-4) 0 5 1 = Err Overflow.
Proof. split; [exact ref_exact|]. repeat match goal with |- _ /\ _ => split end; vm_compute; reflexivity. Qed.

(** ** C50: factorials *)
Lemma fact_is : forall D W (L : dlib D) fuel (rnd : W -> f64 * W) E dbg cf d, decimal_context L fuel rnd E dbg cf = Ok d ->
  forall x w, apply_unary (to_ctx E d) (lit "!") x w = (fact_of L fuel x, w).
Proof. intros D W L fuel rnd E dbg cf d Hd x w. unfold apply_unary. rewrite (dec_un L fuel rnd E dbg cf d Hd 2 (x_fact L fuel) (lit "!") eq_refl (alike_refl _)). reflexivity. Qed.
(** [n!] is exact for [3 <= n <= 27]; from 28 on it is out of range, and [Overflow]; so it is for negative numbers. *)
Theorem C50_factorial : forall D W (L : dlib D) value, exact_decimals L value -> forall fuel (rnd : W -> f64 * W) E dbg cf d, decimal_context L fuel rnd E dbg cf = Ok d ->
  (64 <= fuel)%nat -> forall x n w, (value x == inject_Z (Z.of_nat n))%Q ->
  ((n = 1 \/ 3 <= n <= 27)%nat -> exists y, apply_unary (to_ctx E d) (lit "!") x w = (Ok y, w) /\ (value y == inject_Z (fact n))%Q) /\
  ((28 <= n)%nat -> ~ representable (inject_Z (fact n)) /\ apply_unary (to_ctx E d) (lit "!") x w = (Err Overflow, w)).
Proof.
  intros D W L value EX fuel rnd E dbg cf d Hd Hf x n w Hx. rewrite (fact_is D W L fuel rnd E dbg cf d Hd). split.
  - intros [->|Hn].
    + rewrite (fact_one_two L value EX fuel x (or_introl Hx)). eexists. split; [reflexivity|]. apply (one_val L value EX).
    + destruct (fact_int L value EX fuel x n Hx ltac:(lia) Hf) as [A _]. destruct (A ltac:(lia)) as (y & -> & Y). exists y. auto.
  - intros Hn. split.
    + intros R. apply rep_bound in R. change (Qabs (inject_Z (fact n))) with (inject_Z (Z.abs (fact n))) in R. rewrite <- Zle_Qle in R. pose proof (fact_mono 28 n Hn). pose proof fact_28. lia.
    + destruct (fact_int L value EX fuel x n Hx ltac:(lia) Hf) as [_ B]. rewrite (B Hn). reflexivity.
Qed.
Print Assumptions C50_factorial.
Theorem C50_zero_and_negative : forall D W (L : dlib D) value, exact_decimals L value -> forall fuel (rnd : W -> f64 * W) E dbg cf d, decimal_context L fuel rnd E dbg cf = Ok d ->
  forall w, (forall s, (s <= 28)%N -> exists y, apply_unary (to_ctx E d) (lit "!") (d_lit L 0 s) w = (Ok y, w) /\ (value y == 1)%Q) /\
  (forall x, (value x < 0)%Q -> apply_unary (to_ctx E d) (lit "!") x w = (Err Overflow, w)).
Proof.
  intros D W L value EX fuel rnd E dbg cf d Hd w. split.
  - intros s Hs. rewrite (fact_is D W L fuel rnd E dbg cf d Hd), (fact_zero L value EX fuel s Hs). eexists. split; [reflexivity|]. apply (one_val L value EX).
  - intros x Hx. rewrite (fact_is D W L fuel rnd E dbg cf d Hd), (fact_neg L value EX fuel x Hx). reflexivity.
Qed.
Print Assumptions C50_zero_and_negative.
(** 2! is 1. *)
Theorem C50_two_refuted : forall D W (L : dlib D) value, exact_decimals L value -> forall fuel (rnd : W -> f64 * W) E dbg cf d, decimal_context L fuel rnd E dbg cf = Ok d ->
  forall x w, (value x == 2)%Q -> exists y, apply_unary (to_ctx E d) (lit "!") x w = (Ok y, w) /\ (value y == 1)%Q /\ ~ (value y == inject_Z (fact 2))%Q.
Proof.
  intros D W L value EX fuel rnd E dbg cf d Hd x w Hx. rewrite (fact_is D W L fuel rnd E dbg cf d Hd), (fact_one_two L value EX fuel x (or_intror Hx)).
  eexists. split; [reflexivity|]. pose proof (one_val L value EX) as V. split; [exact V|]. rewrite V. discriminate.
Qed.
Print Assumptions C50_two_refuted.
Definition ref_fact (a s : Z) : res Q := shown (apply_unary ref_ctx (lit "!") (num a s) tt).
Example C50_case : ref_fact 5 0 = Ok (120 # 1)%Q /\ ref_fact 27 0 = Ok (10888869450418352160768000000 # 1)%Q /\ ref_fact 28 0 = Err Overflow /\ ref_fact 2 0 = Ok 1%Q /\ ref_fact 0 0 = Ok 1%Q /\ ref_fact (-5) 1 = Err Overflow.
Proof. repeat match goal with |- _ /\ _ => split end; vm_compute; reflexivity. Qed.

(** ** C51: aggregates *)
Theorem C51_sum_product : forall D W (L : dlib D) value, exact_decimals L value -> forall fuel (rnd : W -> f64 * W) E dbg cf d, decimal_context L fuel rnd E dbg cf = Ok d ->
  forall args w, args <> [] ->
  ((forall k, (k <= List.length args)%nat -> representable (Qsum (map value (firstn k args)))) ->
     exists y, apply_function (to_ctx E d) (lit "sum") args w = (Ok y, w) /\ (value y == Qsum (map value args))%Q) /\
  ((forall k, (k <= List.length args)%nat -> representable (Qproduct (map value (firstn k args)))) ->
     exists y, apply_function (to_ctx E d) (lit "product") args w = (Ok y, w) /\ (value y == Qproduct (map value args))%Q) /\
  ((forall k, (k <= List.length args)%nat -> representable (Qsum (map value (firstn k args)))) ->
   representable (Qsum (map value args) / inject_Z (Z.of_nat (List.length args))) -> Z.of_nat (List.length args) < limit ->
     exists y, apply_function (to_ctx E d) (lit "avg") args w = (Ok y, w) /\ (value y == Qsum (map value args) / inject_Z (Z.of_nat (List.length args)))%Q).
Proof.
  intros D W L value EX fuel rnd E dbg cf d Hd args w Hne. destruct args as [|x args]; [congruence|]. clear Hne. unfold apply_function.
  rewrite (dec_fun L fuel rnd E dbg cf d Hd 0 (x_sum L) (lit "sum") eq_refl (alike_refl _)), (dec_fun L fuel rnd E dbg cf d Hd 2 (x_prod L) (lit "product") eq_refl (alike_refl _)),
    (dec_fun L fuel rnd E dbg cf d Hd 1 (x_avg L) (lit "avg") eq_refl (alike_refl _)). cbn [x_sum x_prod x_avg fun_ fn_call]. unfold lift. cbn [fold_args].
  assert (S : (forall k, (k <= List.length (x :: args))%nat -> representable (Qsum (map value (firstn k (x :: args))))) ->
     exists y, fold_args (panic_op (d_cadd L)) (Some x) args = Ok (Some y) /\ (value y == Qsum (map value (x :: args)))%Q).
  { intros HR. destruct (fold_exact value (d_cadd L) Qplus (ed_add _ _ EX) 0%Q ltac:(intros; rewrite H, H0; reflexivity) ltac:(intros; ring) ltac:(intros; ring) args x (value x) ltac:(reflexivity)) as (y & Y1 & Y2).
    - intros k Hk. specialize (HR (S k) ltac:(cbn; lia)). exact HR.
    - exists y. split; [exact Y1|exact Y2]. }
  split; [|split].
  - intros HR. destruct (S HR) as (y & -> & Y). exists y. split; [reflexivity|exact Y].
  - intros HR. destruct (fold_exact value (d_cmul L) Qmult (ed_mul _ _ EX) 1%Q ltac:(intros; rewrite H, H0; reflexivity) ltac:(intros; ring) ltac:(intros; ring) args x (value x) ltac:(reflexivity)) as (y & Y1 & Y2).
    + intros k Hk. specialize (HR (Datatypes.S k) ltac:(cbn; lia)). exact HR.
    + rewrite Y1. exists y. split; [reflexivity|exact Y2].
  - intros HR HA Hl. destruct (S HR) as (y & -> & Y). cbn [rbind]. unfold panic_op.
    assert (N : (value (int L (Z.of_nat (List.length (x :: args)))) == inject_Z (Z.of_nat (List.length (x :: args))))%Q) by (apply (lit_val L value EX); lia).
    assert (N0 : ~ (value (int L (Z.of_nat (List.length (x :: args)))) == 0)%Q). { rewrite N. change 0%Q with (inject_Z 0). rewrite inject_Z_injective. cbn [List.length]. lia. }
    destruct (computes_exact value _ _ (ed_div _ _ EX y _ N0)) as (r & -> & R); [apply (rep_comp _ _ (Qeq_refl _)); eapply rep_comp; [|exact HA]; rewrite Y, N; reflexivity|].
    exists r. split; [reflexivity|]. rewrite R, Y, N. reflexivity.
Qed.
Print Assumptions C51_sum_product.

(** The error of the checked operators is not returned here: if some prefix is the first out of range, the program panics. *)
Theorem C51_overflow_refuted : forall D W (L : dlib D) value, exact_decimals L value -> forall fuel (rnd : W -> f64 * W) E dbg cf d, decimal_context L fuel rnd E dbg cf = Ok d ->
  forall args k w, (2 <= k <= List.length args)%nat ->
  ((forall j, (j < k)%nat -> representable (Qsum (map value (firstn j args)))) -> (inject_Z limit <= Qabs (Qsum (map value (firstn k args))))%Q ->
     apply_function (to_ctx E d) (lit "sum") args w = (Panic, w) /\ apply_function (to_ctx E d) (lit "avg") args w = (Panic, w)) /\
  ((forall j, (j < k)%nat -> representable (Qproduct (map value (firstn j args)))) -> (inject_Z limit <= Qabs (Qproduct (map value (firstn k args))))%Q ->
     apply_function (to_ctx E d) (lit "product") args w = (Panic, w)).
Proof.
  intros D W L value EX fuel rnd E dbg cf d Hd args k w Hk. destruct args as [|x args]; [cbn in Hk; lia|]. destruct k as [|k]; [lia|]. unfold apply_function.
  rewrite (dec_fun L fuel rnd E dbg cf d Hd 0 (x_sum L) (lit "sum") eq_refl (alike_refl _)), (dec_fun L fuel rnd E dbg cf d Hd 2 (x_prod L) (lit "product") eq_refl (alike_refl _)),
    (dec_fun L fuel rnd E dbg cf d Hd 1 (x_avg L) (lit "avg") eq_refl (alike_refl _)). cbn [x_sum x_prod x_avg fun_ fn_call]. unfold lift. cbn [fold_args].
  split; intros HR HO.
  - rewrite (fold_over value (d_cadd L) Qplus (ed_add _ _ EX) 0%Q ltac:(intros; rewrite H, H0; reflexivity) ltac:(intros; ring) ltac:(intros; ring) args x (value x) k);
      [split; reflexivity|reflexivity|cbn in Hk; lia| |exact HO|apply (ed_representable _ _ EX)].
    intros j Hj. apply (HR (S j)). lia.
  - rewrite (fold_over value (d_cmul L) Qmult (ed_mul _ _ EX) 1%Q ltac:(intros; rewrite H, H0; reflexivity) ltac:(intros; ring) ltac:(intros; ring) args x (value x) k);
      [reflexivity|reflexivity|cbn in Hk; lia| |exact HO|apply (ed_representable _ _ EX)].
    intros j Hj. apply (HR (S j)). lia.
Qed.
Print Assumptions C51_overflow_refuted.

Theorem C51_max_min : forall D W (L : dlib D) value, exact_decimals L value -> forall fuel (rnd : W -> f64 * W) E dbg cf d, decimal_context L fuel rnd E dbg cf = Ok d ->
  forall args w,
  ((2 <= List.length args)%nat ->
     (exists m, apply_function (to_ctx E d) (lit "max") args w = (Ok m, w) /\ In m args /\ forall z, In z args -> (value z <= value m)%Q) /\
     (exists m, apply_function (to_ctx E d) (lit "min") args w = (Ok m, w) /\ In m args /\ forall z, In z args -> (value m <= value z)%Q)) /\
  ((List.length args < 2)%nat -> apply_function (to_ctx E d) (lit "max") args w = (Err InvalidArgumentCount, w) /\ apply_function (to_ctx E d) (lit "min") args w = (Err InvalidArgumentCount, w)) /\
  (args = [] -> forall f, In f [lit "sum"; lit "product"; lit "avg"] -> apply_function (to_ctx E d) f args w = (Err InvalidArgumentCount, w)).
Proof.
  intros D W L value EX fuel rnd E dbg cf d Hd args w. unfold apply_function.
  rewrite (dec_fun L fuel rnd E dbg cf d Hd 3 (op_max (dec_num L fuel)) (lit "max") eq_refl (alike_refl _)), (dec_fun L fuel rnd E dbg cf d Hd 4 (op_min (dec_num L fuel)) (lit "min") eq_refl (alike_refl _)).
  split; [|split].
  - intros Hl. destruct args as [|x args]; [cbn in Hl; lia|]. cbn [op_max op_min fun_ fn_call]. unfold lift. destruct (List.length (x :: args) <=? 1)%nat eqn:B; [apply Nat.leb_le in B; lia|]. cbn [best]. split.
    + destruct (best_spec (n_gt (dec_num L fuel)) (fun a b => (value a <= value b)%Q)) with (args := args) (a := x) as (m & -> & M2 & M3 & M4).
      * intros a b H. apply Qlt_le_weak. apply (d_gt_iff L value EX). unfold n_gt in H. cbn [dec_num n_cmp] in H. unfold d_gt. destruct (d_cmp L a b); congruence.
      * intros a b H. apply (d_gt_false L value EX). unfold n_gt in H. cbn [dec_num n_cmp] in H. unfold d_gt. destruct (d_cmp L a b); congruence.
      * intros a b c H1 H2. eapply Qle_trans; eassumption.
      * intros a. apply Qle_refl.
      * exists m. split; [reflexivity|]. split; [cbn; destruct M2; auto|]. intros z [<-|Hz]; auto.
    + destruct (best_spec (n_lt (dec_num L fuel)) (fun a b => (value b <= value a)%Q)) with (args := args) (a := x) as (m & -> & M2 & M3 & M4).
      * intros a b H. apply Qlt_le_weak. apply (d_lt_iff L value EX). unfold n_lt in H. cbn [dec_num n_cmp] in H. unfold d_lt. destruct (d_cmp L a b); congruence.
      * intros a b H. apply (d_lt_false L value EX). unfold n_lt in H. cbn [dec_num n_cmp] in H. unfold d_lt. destruct (d_cmp L a b); congruence.
      * intros a b c H1 H2. eapply Qle_trans; eassumption.
      * intros a. apply Qle_refl.
      * exists m. split; [reflexivity|]. split; [cbn; destruct M2; auto|]. intros z [<-|Hz]; auto.
  - intros Hl. cbn [op_max op_min fun_ fn_call]. unfold lift. destruct (List.length args <=? 1)%nat eqn:B; [split; reflexivity|apply Nat.leb_gt in B; lia].
  - intros -> f [<-|[<-|[<-|[]]]].
    + rewrite (dec_fun L fuel rnd E dbg cf d Hd 0 (x_sum L) (lit "sum") eq_refl (alike_refl _)). reflexivity.
    + rewrite (dec_fun L fuel rnd E dbg cf d Hd 2 (x_prod L) (lit "product") eq_refl (alike_refl _)). reflexivity.
    + rewrite (dec_fun L fuel rnd E dbg cf d Hd 1 (x_avg L) (lit "avg") eq_refl (alike_refl _)). reflexivity.
Qed.
Print Assumptions C51_max_min.
Definition ref_fun (f : string) (args : list dec) : res Q := shown (apply_function ref_ctx (lit f) args tt).
Example C51_case : ref_fun "sum" [num 1 1; num 2 1; num (-5) 0] = Ok (-47 # 10)%Q /\ ref_fun "product" [num 15 1; num 2 0; num 3 0] = Ok (9 # 1)%Q /\ ref_fun "avg" [num 1 0; num 2 0; num 3 0; num 5 0] = Ok (11 # 4)%Q /\
  ref_fun "max" [num 1 1; num 25 2; num (-3) 0] = Ok (1 # 4)%Q /\ ref_fun "min" [num 1 1; num 25 2; num (-3) 0] = Ok (-3 # 1)%Q /\ ref_fun "max" [num 1 0] = Err InvalidArgumentCount /\
  ref_fun "sum" [num (limit - 1) 0; num 1 0] = Panic.
Proof. repeat match goal with |- _ /\ _ => split end; vm_compute; reflexivity. Qed.
