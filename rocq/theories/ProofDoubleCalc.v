(** * The calculator of SpecDoubleCalc is what the default contexts over [f64] compute *)
From Coq Require Import List NArith ZArith QArith Qabs Bool Arith Lia Lqa String.
From Coq Require Import Floats.SpecFloat.
From Verif Require Import ModelBase ModelContext ModelEvaluator ModelText ModelDefault ModelFloat ModelGamma ModelNum ModelOps ModelSplit ModelTokenizer
  SpecExpr SpecText SpecOps SpecLex SpecRepl SpecDecimal SpecDouble SpecFunctions SpecRound SpecCalculator SpecDoubleCalc
  ProofText ProofDefault ProofBuild ProofCtx ProofOps ProofFloat ProofDouble ProofDouble2 ProofSnap ProofRound ProofRound2 ProofRound3 ProofCalculator PropDouble PropFunctions PropRound PropFactorial PropLogs.
Import ListNotations.
Local Open Scope Z_scope.

(** ** Rounding keeps the sign *)
Lemma integral_negative : forall adjust x, (forall s a r d, 0 <= a -> 0 <= adjust s a r d) -> negative (f_integral adjust x) = negative x.
Proof.
  intros adjust x H. destruct x as [s|s| |s m e]; try reflexivity. cbn [f_integral]. destruct (0 <=? e) eqn:K; [reflexivity|]. cbv zeta.
  set (a := adjust s (Zpos m / 2 ^ (- e)) (Zpos m mod 2 ^ (- e)) (2 ^ (- e))). assert (A : 0 <= a). { apply H. apply Z.div_pos; [lia|]. apply Z.pow_pos_nonneg; [lia|]. apply Z.leb_gt in K. lia. }
  destruct (Z.eqb_spec a 0) as [Z0|Z0]; [reflexivity|]. rewrite normalize_negative. destruct s; cbn [negative]; [destruct (- a) eqn:B; lia || reflexivity|destruct a; lia || reflexivity].
Qed.
Ltac adj := intros s a r d A; cbv beta; repeat match goal with |- context [if ?b then _ else _] => destruct b end; lia.
Lemma floor_negative : forall x, negative (f_floor x) = negative x. Proof. intros x. apply integral_negative. adj. Qed.
Lemma ceil_negative : forall x, negative (f_ceil x) = negative x. Proof. intros x. apply integral_negative. adj. Qed.
Lemma trunc_negative : forall x, negative (f_trunc x) = negative x. Proof. intros x. apply integral_negative. adj. Qed.
Lemma round_negative_ : forall x, negative (f_round x) = negative x. Proof. intros x. apply integral_negative. adj. Qed.
Lemma approx_negative : forall x, negative (f_approx x) = negative x.
Proof. intros x. unfold f_approx. cbv zeta. destruct (f_lt _ _); [apply round_negative_|reflexivity]. Qed.

Definition rounding (which : Q -> Z -> Prop) (f : f64 -> f64) : Prop :=
  (forall y q, stands_for y q -> exists k, which q k /\ stands_for (f y) (inject_Z k)) /\ forall y, negative (f y) = negative y.
Lemma floor_rounding : rounding is_floor f_floor. Proof. split; [exact floor_spec|exact floor_negative]. Qed.
Lemma ceil_rounding : rounding is_ceiling f_ceil. Proof. split; [exact ceil_spec|exact ceil_negative]. Qed.
Lemma round_rounding : rounding is_rounded f_round.
Proof. split; [|exact round_negative_]. intros y q H. destruct (round_spec y q H) as (k & A & B & _). exists k. auto. Qed.
Lemma trunc_rounding : rounding (fun q k => k = truncated q) f_trunc.
Proof. split; [|exact trunc_negative]. intros y q H. exists (truncated q). split; [reflexivity|exact (trunc_spec y q H)]. Qed.

Lemma steps_in : forall op a xs z, in_steps op a xs z -> stepwise op a xs z.
Proof. intros op a xs z H. induction H as [a|a x xs b z A _ IH]; cbn [stepwise]; [reflexivity|]. exists b. auto. Qed.

Lemma best_fold : forall (better : f64 -> f64 -> bool) xs a, best better (Some a) xs = Some (fold_left (fun a v => if better v a then v else a) xs a).
Proof. intros better xs. induction xs as [|x xs IH]; intros a; [reflexivity|]. cbn [best fold_left]. rewrite <- IH. destruct (better x a); reflexivity. Qed.
Lemma gt_is : forall fuel x y, n_gt (f64_num fuel) x y = SFltb y x.
Proof.
  intros fuel x y. unfold n_gt, SFltb. cbn [n_cmp f64_num]. unfold f_cmp. destruct x as [s|s| |s m e], y as [t|t| |t n f]; try reflexivity; try (destruct s; reflexivity); try (destruct t; reflexivity); try (destruct s, t; reflexivity).
  cbn [SFcompare]. destruct s, t; try reflexivity.
  - rewrite (Z.compare_antisym e f). destruct (e ?= f)%Z eqn:K; cbn [CompOpp]; try reflexivity. pose proof (Pos.compare_cont_antisym n m Eq) as Y. cbn [CompOpp] in Y. destruct (Pos.compare_cont Eq n m), (Pos.compare_cont Eq m n); try discriminate Y; reflexivity.
  - rewrite (Z.compare_antisym e f). destruct (e ?= f)%Z eqn:K; cbn [CompOpp]; try reflexivity. pose proof (Pos.compare_cont_antisym n m Eq) as Y. cbn [CompOpp] in Y. destruct (Pos.compare_cont Eq n m), (Pos.compare_cont Eq m n); try discriminate Y; reflexivity.
Qed.
Lemma ge_zero : forall fuel x, (if n_ge (f64_num fuel) x f_zero then Ok x else Ok (f_neg x)) = @Ok f64 (if SFltb x (S754_zero false) then opposite x else x).
Proof. intros fuel x. rewrite opposite_is. destruct x as [s|s| |s m e]; try destruct s; reflexivity. Qed.

Lemma PI_rounds : rounds (31415926535897932384626433832795 # 10000000000000000000000000000000) f_PI.
Proof. replace f_PI with (f_div (S754_finite false 31415926535897932384626433832795 0) (S754_finite false 10000000000000000000000000000000 0)) by (vm_compute; reflexivity). exact (literal_rounds false _ _). Qed.
Lemma E_rounds : rounds (27182818284590452353602874713527 # 10000000000000000000000000000000) f_E.
Proof. replace f_E with (f_div (S754_finite false 27182818284590452353602874713527 0) (S754_finite false 10000000000000000000000000000000 0)) by (vm_compute; reflexivity). exact (literal_rounds false _ _). Qed.

(** ** The contexts *)
Section Values.
Context {W : Type}.
Variables (fuel : nat) (L : libm) (rnd : W -> f64 * W) (checked docs : bool) (E : env) (dbg : bool) (cf : config) (d d' : dctx f64 W).
Notation n := (f64_num fuel).
Hypothesis H : (if checked then checked_context n L rnd docs E dbg cf else unchecked_context n L rnd E dbg cf) = Ok d.
Hypothesis Hs : same_but_variables d d'.
Notation c := (to_ctx E d).
Notation c' := (to_ctx E d').
Lemma Hd : f64_context fuel L rnd docs E dbg cf d.
Proof using H. clear - H. destruct checked; [left|right]; exact H. Qed.
Lemma lookups : get_function c' = get_function c /\ get_unary c' = get_unary c /\ get_binary c' = get_binary c /\ get_constant c' = get_constant c.
Proof using Hs. destruct Hs as (A1 & A2 & A3 & A4 & A5). cbn [to_ctx get_function get_unary get_binary get_constant]. rewrite ?A1, ?A2, ?A3, ?A4, ?A5. auto. Qed.
Lemma bin_c : forall o x y w, apply_binary c' o x y w = apply_binary c o x y w.
Proof using Hs. intros o x y w. unfold apply_binary. destruct lookups as (_ & _ & -> & _). reflexivity. Qed.
Lemma un_c : forall o x w, apply_unary c' o x w = apply_unary c o x w.
Proof using Hs. intros o x w. unfold apply_unary. destruct lookups as (_ & -> & _). reflexivity. Qed.
Lemma fun_c : forall o xs w, apply_function c' o xs w = apply_function c o xs w.
Proof using Hs. intros o xs w. unfold apply_function. destruct lookups as (-> & _). reflexivity. Qed.
Lemma un_low : forall o name x w, named o name = true -> map small (lit name) = lit name -> apply_unary c o x w = apply_unary c (lit name) x w.
Proof using. clear. intros o name x w K Lw. unfold apply_unary. destruct (lookup_alike E d o (lit name) (named_alike _ _ K Lw)) as (_ & _ & -> & _). reflexivity. Qed.
Lemma fun_low : forall o name xs w, named o name = true -> map small (lit name) = lit name -> apply_function c o xs w = apply_function c (lit name) xs w.
Proof using. clear. intros o name xs w K Lw. unfold apply_function. destruct (lookup_alike E d o (lit name) (named_alike _ _ K Lw)) as (_ & -> & _). reflexivity. Qed.

Ltac not_yet K := repeat (match goal with |- context [named ?o ?m] => rewrite (named_other o _ m K) by reflexivity end).

Lemma operation_said : forall o x y w, one_of ["+"; "-"; "*"; "/"; "mod"; "^"]%string o -> exists r, operation_worth L o x y r /\ apply_binary c' o x y w = (r, w).
Proof using H Hs.
  intros o x y w (nm & Hn & K). rewrite bin_c. destruct (C67_operators W fuel L rnd docs E dbg cf d Hd o x y w) as (A1 & A2 & A3 & A4 & A5 & A6 & _).
  unfold operation_worth, number_with. cbn [In] in Hn. destruct Hn as [<-|[<-|[<-|[<-|[<-|[<-|[]]]]]]]; pose proof (named_alike _ _ K eq_refl) as A.
  - rewrite K. destruct (A1 A) as (z & -> & Z). exists (Ok z). split; [exists z; auto|reflexivity].
  - rewrite K. rewrite (named_other o _ "+" K) by reflexivity. destruct (A2 A) as (z & -> & Z). exists (Ok z). split; [exists z; auto|reflexivity].
  - rewrite K. rewrite (named_other o _ "+" K), (named_other o _ "-" K) by reflexivity. destruct (A3 A) as (z & -> & Z). exists (Ok z). split; [exists z; auto|reflexivity].
  - rewrite K. rewrite (named_other o _ "+" K), (named_other o _ "-" K), (named_other o _ "*" K) by reflexivity. destruct (zero_double y) eqn:Y.
    + exists (Err DivisionByZero). split; [reflexivity|]. apply A6; auto.
    + destruct (A4 A eq_refl) as (z & -> & Z). exists (Ok z). split; [exists z; auto|reflexivity].
  - rewrite K. rewrite (named_other o _ "+" K), (named_other o _ "-" K), (named_other o _ "*" K), (named_other o _ "/" K) by reflexivity. destruct (zero_double y) eqn:Y.
    + exists (Err DivisionByZero). split; [reflexivity|]. apply A6; auto.
    + destruct (A5 A eq_refl) as (z & -> & Z). exists (Ok z). split; [exists z; auto|reflexivity].
  - rewrite K. rewrite (named_other o _ "+" K), (named_other o _ "-" K), (named_other o _ "*" K), (named_other o _ "/" K), (named_other o _ "mod" K) by reflexivity.
    exists (Ok (powf L x y)). split; [reflexivity|]. clear A1 A2 A3 A4 A5 A6. unfold apply_binary.
    assert (G : get_binary c o = Some (op_pow n L)). { destruct Hd as [Q|Q]; [exact (checked_bin n L rnd docs E dbg cf d 4 _ o Q eq_refl A)|exact (unchecked_bin n L rnd E dbg cf d 4 _ o Q eq_refl A)]. }
    rewrite G. reflexivity.
Qed.
Lemma product_said : forall x y w, exists r, number_with (ieee_product x y) r /\ apply_binary c' times x y w = (r, w).
Proof using H Hs.
  intros x y w. rewrite bin_c. destruct (C67_operators W fuel L rnd docs E dbg cf d Hd times x y w) as (_ & _ & A3 & _). destruct (A3 (alike_refl _)) as (z & -> & Z). exists (Ok z). split; [exists z; auto|reflexivity].
Qed.

Lemma factorial_said : forall u x w, one_of ["!"]%string u -> exists r, factorial_worth L fuel x r /\ apply_unary c' u x w = (r, w).
Proof using H Hs.
  intros u x w (nm & Hn & K). cbn [In] in Hn. destruct Hn as [<-|[]]. rewrite un_c, (un_low u "!" x w K eq_refl), (factorial_is fuel L rnd docs E dbg cf d Hd x w). eexists. split; [|reflexivity]. split.
  - intros Nx Zx. unfold factorial, n_lt. cbn [n_cmp n_zero f64_num]. destruct x as [s|s| |s m e]; try discriminate; cbn in Nx; subst s; reflexivity.
  - intros q Hx. split; [|split].
    + intros Q0. exists f_one. split; [|exact one_stands]. unfold factorial. unfold n_lt. cbn [n_cmp n_is_zero n_is_one n_zero n_one n_sub f64_num]. rewrite (cmp_exact _ _ _ _ Hx zero_stands).
      destruct Q0 as [Q0|Q0].
      * assert (C0 : (q ?= 0)%Q = Eq) by (apply (proj1 (Qeq_alt _ _)); exact Q0). rewrite C0. rewrite (proj2 (is_zero_exact x _ Hx) Q0). reflexivity.
      * assert (C0 : (q ?= 0)%Q = Gt) by (apply (proj1 (Qgt_alt _ _)); lra). assert (C1 : (q ?= 1)%Q = Eq) by (apply (proj1 (Qeq_alt _ _)); exact Q0). rewrite C0, (cmp_exact _ _ _ _ Hx one_stands), C1.
        rewrite orb_true_r. reflexivity.
    + intros Q01. destruct (C74_fraction_below_one W fuel L rnd docs E dbg cf d Hd x q w Hx Q01) as (s & S1 & S2). exists s. split; [exact S1|]. rewrite (factorial_is fuel L rnd docs E dbg cf d Hd x w) in S2. injection S2 as ->. reflexivity.
    + intros k [K1 K2] [Q1 Q2] Q3 Q4. destruct (above_one fuel L x q k Hx K1 Q1 Q2 Q3 Q4 K2) as (fs & p & rest & F1 & F2 & F3 & F4 & ->). exists fs, p. split; [|split; [apply steps_in; exact F3|split]].
      * clear - F1 F2. revert F1 F2. generalize (pred k) as j. intros j <-. assert (G : forall m (ys : list f64), (forall i, (i < List.length ys)%nat -> stands_for (nth i ys f_zero) (q - inject_Z (Z.of_nat (m + i)))) -> Forall2 stands_for ys (map (fun i => (q - inject_Z (Z.of_nat i))%Q) (seq m (List.length ys)))).
        { intros m ys. revert m. induction ys as [|y ys IH]; intros m G; cbn [List.length seq map]; constructor.
          - specialize (G 0%nat ltac:(cbn; lia)). rewrite Nat.add_0_r in G. exact G.
          - apply IH. intros i Hi. specialize (G (S i) ltac:(cbn; lia)). rewrite Nat.add_succ_r in G. exact G. }
        intros F2. apply G. exact F2.
      * intros Z. rewrite (proj2 (is_zero_exact rest _ F4)); [reflexivity|lra].
      * intros Z. exists (f_add rest f_one). split; [apply add_rounds; [exact F4|exact one_stands]|]. assert (Z0 : f_is_zero rest = false). { apply not_true_iff_false. rewrite (is_zero_exact rest _ F4). intros Y. apply Z. lra. }
        rewrite Z0. eexists. split; [reflexivity|]. apply product_ieee.
Qed.

(** ** Functions *)
Lemma fun_at : forall i j g f nm, (if checked then nth_error (checked_funs n L rnd docs) i = Some g else nth_error (unchecked_funs n L rnd) j = Some g) -> named f nm = true -> map small (lit nm) = lit nm -> fn_name g = lit nm ->
  forall xs w, apply_function c' f xs w = fn_call g xs w.
Proof using H Hs.
  intros i j g f nm G K Lw Nm xs w. rewrite fun_c. pose proof (named_alike f nm K Lw) as A. rewrite <- Nm in A. unfold apply_function. destruct checked.
  - rewrite (checked_fun n L rnd docs E dbg cf d i g f H G A). reflexivity.
  - rewrite (unchecked_fun n L rnd E dbg cf d j g f H G A). reflexivity.
Qed.
Lemma sum_said : forall f xs w, named f "sum" = true -> exists r, match xs with x :: xs' => number_with (stepwise ieee_sum x xs') r | [] => r = Err InvalidArgumentCount end /\ apply_function c' f xs w = (r, w).
Proof using H Hs.
  intros f xs w K. rewrite fun_c, (fun_low f "sum" xs w K eq_refl). destruct xs as [|x xs].
  - exists (Err InvalidArgumentCount). split; [reflexivity|]. unfold apply_function. destruct Hd as [Q|Q].
    + rewrite (checked_fun n L rnd docs E dbg cf d 0 (c_sum n) (lit "sum") Q eq_refl (alike_refl _)). reflexivity.
    + rewrite (unchecked_fun n L rnd E dbg cf d 0 (u_sum n) (lit "sum") Q eq_refl (alike_refl _)). reflexivity.
  - destruct (C67_sum_product_avg W fuel L rnd docs E dbg cf d Hd x xs w) as ((z & -> & Z) & _). exists (Ok z). split; [exists z; split; [reflexivity|apply steps_in; exact Z]|reflexivity].
Qed.
Lemma product_of_said : forall f xs w, named f "product" = true -> exists r, match xs with x :: xs' => number_with (stepwise ieee_product x xs') r | [] => r = Err InvalidArgumentCount end /\ apply_function c' f xs w = (r, w).
Proof using H Hs.
  intros f xs w K. rewrite fun_c, (fun_low f "product" xs w K eq_refl). destruct xs as [|x xs].
  - exists (Err InvalidArgumentCount). split; [reflexivity|]. unfold apply_function. destruct Hd as [Q|Q].
    + rewrite (checked_fun n L rnd docs E dbg cf d 1 (c_prod n) (lit "product") Q eq_refl (alike_refl _)). reflexivity.
    + rewrite (unchecked_fun n L rnd E dbg cf d 2 (u_prod n) (lit "product") Q eq_refl (alike_refl _)). reflexivity.
  - destruct (C67_sum_product_avg W fuel L rnd docs E dbg cf d Hd x xs w) as (_ & (z & -> & Z) & _). exists (Ok z). split; [exists z; split; [reflexivity|apply steps_in; exact Z]|reflexivity].
Qed.
Lemma avg_said : forall f xs w, named f "avg" = true -> exists r, match xs with
    | x :: xs' => exists s k, stepwise ieee_sum x xs' s /\ rounds (inject_Z (Z.of_nat (List.length xs))) k /\ number_with (ieee_quotient s k) r
    | [] => r = Err InvalidArgumentCount end /\ apply_function c' f xs w = (r, w).
Proof using H Hs.
  intros f xs w K. rewrite fun_c, (fun_low f "avg" xs w K eq_refl). destruct xs as [|x xs].
  - exists (Err InvalidArgumentCount). split; [reflexivity|]. unfold apply_function. destruct Hd as [Q|Q].
    + rewrite (checked_fun n L rnd docs E dbg cf d 2 (c_avg n) (lit "avg") Q eq_refl (alike_refl _)). reflexivity.
    + rewrite (unchecked_fun n L rnd E dbg cf d 1 (u_avg n) (lit "avg") Q eq_refl (alike_refl _)). reflexivity.
  - destruct (C67_sum_product_avg W fuel L rnd docs E dbg cf d Hd x xs w) as (_ & _ & (s & k & z & -> & Z1 & Z2 & Z3)). exists (Ok z). split; [|reflexivity].
    exists s, k. split; [apply steps_in; exact Z1|]. split; [exact Z2|]. exists z. auto.
Qed.
Lemma best_pick : forall (better better' : f64 -> f64 -> bool) xs, (forall x y, better x y = better' x y) -> pick better' xs (if (List.length xs <=? 1)%nat then Err InvalidArgumentCount else or_no_args (best better None xs)).
Proof using.
  clear. intros better better' xs Hb. destruct xs as [|x [|y xs]]; try reflexivity. cbn [List.length Nat.leb]. change (best better None (x :: y :: xs)) with (best better (Some x) (y :: xs)). rewrite best_fold. cbn [or_no_args pick].
  f_equal. generalize (y :: xs) as l. clear - Hb. intros l. revert x. induction l as [|v l IH]; intros a; [reflexivity|]. cbn [fold_left]. rewrite Hb. apply IH.
Qed.
Lemma max_said : forall f xs w, named f "max" = true -> exists r, pick (fun v a => SFltb a v) xs r /\ apply_function c' f xs w = (r, w).
Proof using H Hs.
  intros f xs w K. rewrite (fun_at 3 3 (op_max n) f "max" ltac:(destruct checked; reflexivity) K eq_refl eq_refl xs w). eexists. split; [|reflexivity]. apply best_pick. intros x y. apply gt_is.
Qed.
Lemma min_said : forall f xs w, named f "min" = true -> exists r, pick SFltb xs r /\ apply_function c' f xs w = (r, w).
Proof using H Hs.
  intros f xs w K. rewrite (fun_at 4 4 (op_min n) f "min" ltac:(destruct checked; reflexivity) K eq_refl eq_refl xs w). eexists. split; [|reflexivity]. apply best_pick. intros x y. reflexivity.
Qed.
Lemma log_said : forall f xs w, named f "log" = true -> exists r, match xs with [x] => r = finite_or_nan (platform "log10" L x) | [x; b] => r = finite_or_nan (log_base L x b) | _ => r = Err InvalidArgumentCount end /\ apply_function c' f xs w = (r, w).
Proof using H Hs.
  intros f xs w K. rewrite fun_c. destruct (C69_f64 W fuel L rnd docs E dbg cf d Hd "log"%string (or_introl eq_refl) f xs w (named_alike _ _ K eq_refl)) as (r & R & ->). exists r. split; [|reflexivity]. destruct xs as [|x [|y [|z xs]]]; exact R.
Qed.
Lemma atan_said : forall f xs w, named f "atan" = true -> exists r, match xs with [x] => r = finite_or_nan (platform "to_degrees" L (platform "atan" L x)) | [y; x] => r = (if zero_double y && zero_double x then Err NAN else finite_or_nan (platform "to_degrees" L (atan2 L y x))) | _ => r = Err InvalidArgumentCount end /\ apply_function c' f xs w = (r, w).
Proof using H Hs.
  intros f xs w K. rewrite fun_c. destruct (C69_f64 W fuel L rnd docs E dbg cf d Hd "atan"%string (or_intror (or_introl eq_refl)) f xs w (named_alike _ _ K eq_refl)) as (r & R & ->). exists r. split; [|reflexivity]. destruct xs as [|x [|y [|z xs]]]; exact R.
Qed.
Lemma integer_said : forall which fl i nm f xs w, rounding which fl -> checked = true -> nth_error (checked_funs n L rnd docs) i = Some (forward n nm fl) -> named f nm = true -> map small (lit nm) = lit nm ->
  exists r, of_one (integer_worth which) xs r /\ apply_function c' f xs w = (r, w).
Proof using H Hs.
  intros which fl i nm f xs w [R1 R2] Ck Hi K Lw. rewrite (fun_at i 0 (forward n nm fl) f nm ltac:(rewrite Ck; exact Hi) K Lw eq_refl xs w). eexists. split; [|reflexivity]. cbn [forward fun_ fn_call]. unfold of_one, integer_worth.
  destruct xs as [|x [|y xs]]; [reflexivity| |reflexivity]. unfold lift, try_to_float. cbn [n_to_f64 f64_num]. destruct (finite x) eqn:F.
  - exists (f_approx x). split; [apply approx_spec|]. intros q Hq. exists (fl (f_approx x)). split; [destruct x; try discriminate F; reflexivity|].
    destruct (R1 _ _ Hq) as (k & K1 & K2). exists k. split; [exact K1|]. split; [exact K2|]. rewrite R2. apply approx_negative.
  - destruct x; try discriminate F; reflexivity.
Qed.
Lemma sign_said : forall nm f xs w, checked = true -> nm = (if docs then "signum" else "sign")%string -> named f nm = true ->
  exists r, of_one (fun x r => if finite x then number_with (fun z => stands_for z (if negative x then -1 else 1)) r else r = Err NAN) xs r /\ apply_function c' f xs w = (r, w).
Proof using H Hs.
  intros nm f xs w Ck Hn K. rewrite (fun_at 14 0 (op_sign n docs) f nm ltac:(rewrite Ck; reflexivity) K ltac:(subst nm; destruct docs; reflexivity) ltac:(subst nm; reflexivity) xs w). eexists. split; [|reflexivity]. cbn [op_sign forward fun_ fn_call]. unfold of_one.
  destruct xs as [|x [|y xs]]; [reflexivity| |reflexivity]. unfold lift, try_to_float. cbn [n_to_f64 f64_num]. destruct (finite x) eqn:F.
  - exists (f_signum (f_approx x)). split; [destruct x; try discriminate F; reflexivity|]. rewrite <- approx_negative.
    assert (F' : f_approx x <> S754_nan). { unfold f_approx. cbv zeta. destruct (f_lt _ _) eqn:Q; [|intros Y; rewrite Y in F; discriminate F]. intros Y. rewrite Y in Q. destruct x; discriminate Q. }
    destruct (f_approx x) as [s|s| |s m e]; try congruence; destruct s; cbn [f_signum negative]; first [exact one_stands|exact (neg_exact _ _ one_stands)].
  - destruct x; try discriminate F; reflexivity.
Qed.
Lemma abs_said : forall f xs w, checked = true -> named f "abs" = true -> exists r, of_one (fun x r => r = Ok (if SFltb x (S754_zero false) then opposite x else x)) xs r /\ apply_function c' f xs w = (r, w).
Proof using H Hs.
  intros f xs w Ck K. rewrite (fun_at 5 0 (c_abs n) f "abs" ltac:(rewrite Ck; reflexivity) K eq_refl eq_refl xs w). eexists. split; [|reflexivity]. unfold of_one. destruct xs as [|x [|y xs]]; [reflexivity| |reflexivity]. cbn [c_abs fun_ fn_call]. apply (ge_zero fuel x).
Qed.
Definition special : list string := ["sum"; "product"; "avg"; "max"; "min"; "log"; "atan"; "abs"; "floor"; "ceil"; "round"; "trunc"; "truncate"; "signum"; "sign"]%string.
Lemma table_said : forall f name fm xs w, In (name, fm) function_table -> named f name = true -> (forall m, In m special -> named f m = false) /\ exists r, of_one (computes L fm) xs r /\ apply_function c' f xs w = (r, w).
Proof using H Hs.
  intros f name fm xs w HIn K. split.
  - intros m Hm. apply (named_other f name m K). assert (X : forallb (fun p => forallb (fun m => negb (str_eqb (lit (fst p)) (lit m))) special) function_table = true) by (vm_compute; reflexivity).
    rewrite forallb_forall in X. specialize (X _ HIn). cbn [fst] in X. rewrite forallb_forall in X. specialize (X m Hm). apply negb_true_iff in X. exact X.
  - assert (Lw : map small (lit name) = lit name). { assert (X : forallb (fun p => str_eqb (map small (lit (fst p))) (lit (fst p))) function_table = true) by (vm_compute; reflexivity). rewrite forallb_forall in X. apply str_eqb_eq. exact (X _ HIn). }
    pose proof (named_alike f name K Lw) as A. rewrite fun_c. destruct xs as [|x [|y xs]].
    2: { destruct (C65_functions W fuel L rnd docs E dbg cf d Hd name fm HIn f x w A) as (r & R & ->). exists r. auto. }
    all: exists (Err InvalidArgumentCount); (split; [reflexivity|]); unfold apply_function; rewrite (table_found _ _ n L rnd docs E dbg cf d Hd name fm HIn f A); destruct fm; reflexivity.
Qed.

Lemma call_said : forall f xs w, one_of (common_names ++ (if checked then SpecDoubleCalc.checked_names docs else [])) f -> exists r, call_worth L checked docs f xs r /\ apply_function c' f xs w = (r, w).
Proof using H Hs.
  intros f xs w (nm & Hn & K). unfold common_names in Hn. rewrite <- app_assoc in Hn. apply in_app_or in Hn. destruct Hn as [Hn|Hn].
  - apply in_map_iff in Hn. destruct Hn as ([nm' fm] & <- & HIn). cbn [fst] in K. destruct (table_said f nm' fm xs w HIn K) as (X & r & R1 & R2). exists r. split; [|exact R2]. unfold call_worth.
    rewrite !X by (unfold special; cbn [In]; destruct docs; tauto). rewrite !andb_false_r. exists nm', fm. auto.
  - apply in_app_or in Hn. destruct Hn as [Hn|Hn].
    + cbn [In] in Hn. unfold call_worth. destruct Hn as [<-|[<-|[<-|[<-|[<-|[<-|[<-|[]]]]]]]]; rewrite K.
      * exact (sum_said f xs w K).
      * rewrite (named_other f _ "sum" K) by reflexivity. exact (product_of_said f xs w K).
      * rewrite (named_other f _ "sum" K), (named_other f _ "product" K) by reflexivity. exact (avg_said f xs w K).
      * rewrite (named_other f _ "sum" K), (named_other f _ "product" K), (named_other f _ "avg" K) by reflexivity. exact (max_said f xs w K).
      * rewrite (named_other f _ "sum" K), (named_other f _ "product" K), (named_other f _ "avg" K), (named_other f _ "max" K) by reflexivity. exact (min_said f xs w K).
      * rewrite (named_other f _ "sum" K), (named_other f _ "product" K), (named_other f _ "avg" K), (named_other f _ "max" K), (named_other f _ "min" K) by reflexivity. exact (log_said f xs w K).
      * rewrite (named_other f _ "sum" K), (named_other f _ "product" K), (named_other f _ "avg" K), (named_other f _ "max" K), (named_other f _ "min" K), (named_other f _ "log" K) by reflexivity. exact (atan_said f xs w K).
    + assert (Ck : checked = true) by (destruct checked; [reflexivity|destruct Hn]). rewrite Ck in Hn. unfold call_worth. rewrite Ck. cbn [andb].
      assert (X : forall m, In m ["sum"; "product"; "avg"; "max"; "min"; "log"; "atan"]%string -> named f m = false).
      { intros m Hm. apply (named_other f nm m K). assert (X : forall b, forallb (fun p => forallb (fun m => negb (str_eqb (lit p) (lit m))) ["sum"; "product"; "avg"; "max"; "min"; "log"; "atan"]%string) (SpecDoubleCalc.checked_names b) = true) by (intros []; vm_compute; reflexivity).
        specialize (X docs). rewrite forallb_forall in X. specialize (X _ Hn). rewrite forallb_forall in X. specialize (X m Hm). apply negb_true_iff in X. exact X. }
      rewrite !X by (cbn [In]; tauto). clear X. unfold SpecDoubleCalc.checked_names in Hn. cbn [In] in Hn. destruct Hn as [<-|[<-|[<-|[<-|[Hn|[Hn|[]]]]]]].
      * rewrite K. exact (abs_said f xs w Ck K).
      * rewrite K, (named_other f _ "abs" K) by reflexivity. exact (integer_said _ _ 10 "floor" f xs w floor_rounding Ck eq_refl K eq_refl).
      * rewrite K, (named_other f _ "abs" K), (named_other f _ "floor" K) by reflexivity. exact (integer_said _ _ 11 "ceil" f xs w ceil_rounding Ck eq_refl K eq_refl).
      * rewrite K, (named_other f _ "abs" K), (named_other f _ "floor" K), (named_other f _ "ceil" K) by reflexivity. exact (integer_said _ _ 13 "round" f xs w round_rounding Ck eq_refl K eq_refl).
      * pose proof K as K'. rewrite <- Hn in K'. rewrite K'. rewrite (named_other f _ "abs" K), (named_other f _ "floor" K), (named_other f _ "ceil" K), (named_other f _ "round" K) by (subst nm; destruct docs; reflexivity).
        apply (integer_said _ _ 12 (if docs then "trunc" else "truncate")%string f xs w trunc_rounding Ck eq_refl K'). destruct docs; reflexivity.
      * pose proof K as K'. rewrite <- Hn in K'. rewrite K'. rewrite (named_other f _ "abs" K), (named_other f _ "floor" K), (named_other f _ "ceil" K), (named_other f _ "round" K), (named_other f _ (if docs then "trunc" else "truncate") K) by (subst nm; destruct docs; reflexivity).
        exact (sign_said _ f xs w Ck eq_refl K').
Qed.

(** ** Expressions *)
Lemma constant_said : forall x, (named x "pi" = true -> get_constant c' x = Some f_PI) /\ (named x "e" = true -> get_constant c' x = Some f_E).
Proof using H Hs.
  intros x. destruct lookups as (_ & _ & _ & ->). assert (X : exists bs us fs, d = ctx_of f_PI f_E bs us fs cf).
  { destruct checked; [destruct (checked_inv _ _ _ _ _ _ _ _ H) as (p & e & P1 & P2 & ->)|destruct (unchecked_inv _ _ _ _ _ _ _ H) as (p & e & P1 & P2 & ->)]; injection P1 as <-; injection P2 as <-; eexists; eexists; eexists; reflexivity. }
  destruct X as (bs & us & fs & ->). cbn [to_ctx get_constant ctx_of d_consts]. split; intros K.
  - apply (mget_nth _ _ _ 0%nat (lit "PI")); [vm_compute; reflexivity|reflexivity|]. apply fold_alike. apply str_eqb_eq. exact K.
  - apply (mget_nth _ _ _ 1%nat (lit "E")); [vm_compute; reflexivity|reflexivity|]. apply fold_alike. apply str_eqb_eq. exact K.
Qed.

Definition known_all (es : list (expr f64)) : Prop := (fix all es := match es with [] => True | e :: es' => known checked docs e /\ all es' end) es.
Lemma all_said : forall es, Forall (fun e => known checked docs e -> forall w, exists r, worth L (get_variable c') fuel checked docs e r /\ denote c' e w = (r, w)) es -> known_all es ->
  forall w, exists r, all_worth (map (worth L (get_variable c') fuel checked docs) es) r /\ sequence (map (denote c') es) w = (r, w).
Proof using.
  clear. intros es He. induction He as [|e es A _ IH]; cbn [known_all map sequence all_worth]; [intros _ w; exists (Ok []); split; reflexivity|].
  intros [K Ks] w. destruct (A K w) as (r & R1 & R2). unfold bind at 1. rewrite R2. destruct r as [x|k|].
  - destruct (IH Ks w) as (rs & S1 & S2). unfold bind. rewrite S2. destruct rs as [xs|k|].
    + exists (Ok (x :: xs)). split; [|reflexivity]. exists (Ok x). split; [exact R1|]. exists (Ok xs). split; [exact S1|reflexivity].
    + exists (Err k). split; [|reflexivity]. exists (Ok x). split; [exact R1|]. exists (Err k). split; [exact S1|reflexivity].
    + exists Panic. split; [|reflexivity]. exists (Ok x). split; [exact R1|]. exists Panic. split; [exact S1|reflexivity].
  - exists (Err k). split; [|reflexivity]. exists (Err k). split; [exact R1|reflexivity].
  - exists Panic. split; [|reflexivity]. exists Panic. split; [exact R1|reflexivity].
Qed.
Lemma then_said : forall A (m : M W A) (P : res A -> Prop) (f : A -> M W f64) (Q : A -> res f64 -> Prop) w, (exists r, P r /\ m w = (r, w)) -> (forall x, exists r, Q x r /\ f x w = (r, w)) -> exists r, followed P Q r /\ bind m f w = (r, w).
Proof using.
  clear. intros A m P f Q w (r & R1 & R2) Hf. unfold bind. rewrite R2. destruct r as [x|k|].
  - destruct (Hf x) as (s & S1 & S2). exists s. split; [|exact S2]. exists (Ok x). auto.
  - exists (Err k). split; [|reflexivity]. exists (Err k). auto.
  - exists Panic. split; [|reflexivity]. exists Panic. auto.
Qed.
Lemma double_said : forall e, known checked docs e -> forall w, exists r, worth L (get_variable c') fuel checked docs e r /\ denote c' e w = (r, w).
Proof using H Hs.
  refine (expr_ind' _ (fun e => known checked docs e -> forall w, exists r, worth L (get_variable c') fuel checked docs e r /\ denote c' e w = (r, w)) _ _ _ _ _ _ _ _ _); cbn [known worth denote].
  - intros v _ w. exists (Ok v). split; reflexivity.
  - intros x _ w. eexists. split; [reflexivity|]. destruct (get_variable c' x); reflexivity.
  - intros x (nm & Hn & K) w. destruct (constant_said x) as [A B]. cbn [In] in Hn. destruct Hn as [<-|[<-|[]]].
    + rewrite K, (A K). exists (Ok f_PI). split; [|reflexivity]. exists f_PI. split; [reflexivity|exact PI_rounds].
    + rewrite (named_other x _ "pi" K) by reflexivity. rewrite K, (B K). exists (Ok f_E). split; [|reflexivity]. exists f_E. split; [reflexivity|exact E_rounds].
  - intros g e IH. exact IH.
  - intros f g args IH [Kf Ka] w. apply then_said; [exact (all_said args IH Ka w)|]. intros xs. exact (call_said f xs w Kf).
  - intros u e IH [(nm & Hn & K) Ke] w. apply then_said; [exact (IH Ke w)|]. intros x. rewrite un_c. destruct (C67_operators W fuel L rnd docs E dbg cf d Hd u x x w) as (_ & _ & _ & _ & _ & _ & A7 & A8).
    cbn [In] in Hn. destruct Hn as [<-|[<-|[]]]; eexists; (split; [reflexivity|]).
    + rewrite (A7 (named_alike _ _ K eq_refl)), (named_other u _ "-" K) by reflexivity. reflexivity.
    + rewrite (A8 (named_alike _ _ K eq_refl)), K. reflexivity.
  - intros e u IH [Ku Ke] w. apply then_said; [exact (IH Ke w)|]. intros x. exact (factorial_said u x w Ku).
  - intros o l r IHl IHr (Ko & Kl & Kr) w. apply then_said; [exact (IHl Kl w)|]. intros x. apply then_said; [exact (IHr Kr w)|]. intros y. exact (operation_said o x y w Ko).
  - intros l r IHl IHr (Kl & Kr) w. apply then_said; [exact (IHl Kl w)|]. intros x. apply then_said; [exact (IHr Kr w)|]. intros y. exact (product_said x y w).
Qed.
End Values.

Lemma followed_more : forall A B (P P' : res A -> Prop) (Q : A -> res B -> Prop) r, (forall a, P a -> P' a) -> followed P Q r -> followed P' Q r.
Proof. intros A B P P' Q r HP (a & A1 & A2). exists a. auto. Qed.
Lemma followed_next : forall A B (P : res A -> Prop) (Q Q' : A -> res B -> Prop) r, (forall x r, Q x r -> Q' x r) -> followed P Q r -> followed P Q' r.
Proof. intros A B P Q Q' r HQ (a & A1 & A2). exists a. split; [exact A1|]. destruct a; auto. Qed.
Lemma worth_vars : forall L vars vars' turns checked docs, (forall x, vars x = vars' x) -> forall e r, worth L vars turns checked docs e r -> worth L vars' turns checked docs e r.
Proof.
  intros L vars vars' turns checked docs V. refine (expr_ind' _ (fun e => forall r, worth L vars turns checked docs e r -> worth L vars' turns checked docs e r) _ _ _ _ _ _ _ _ _); cbn [worth]; auto.
  - intros x r. rewrite V. auto.
  - intros f g args IH r. apply followed_more. clear r. induction IH as [|e es A _ IHes]; cbn [map all_worth]; [auto|]. intros r R. apply (followed_more _ _ _ _ _ r A) in R. revert R. apply followed_next. intros x s. apply followed_more. exact IHes.
  - intros u e IH r. apply followed_more. exact IH.
  - intros e u IH r. apply followed_more. exact IH.
  - intros o l r IHl IHr s S. apply (followed_more _ _ _ _ _ s IHl) in S. revert S. apply followed_next. intros x s'. apply followed_more. exact IHr.
  - intros l r IHl IHr s S. apply (followed_more _ _ _ _ _ s IHl) in S. revert S. apply followed_next. intros x s'. apply followed_more. exact IHr.
Qed.
