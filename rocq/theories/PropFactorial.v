(** * Factorials over f64 (C74) *)
From Coq Require Import List NArith ZArith QArith Qabs Bool Lia Lqa String.
From Coq Require Import Floats.SpecFloat.
From Verif Require Import ModelBase ModelContext ModelText ModelDefault ModelFloat ModelGamma ModelNum ModelOps ModelStd
  SpecText SpecExpr SpecOps SpecDouble SpecFunctions SpecRound ProofText ProofDefault ProofBuild ProofCtx ProofDouble ProofDouble2 ProofRound ProofRound2 ProofRound3 PropDouble PropRound.
Import ListNotations.
Local Open Scope Z_scope.

Lemma minus_one_double q : a_double q -> (1 <= q)%Q -> (q <= inject_Z (2 ^ 53))%Q -> a_double (q - 1).
Proof.
  intros (m & e & Hm & He & Hq) H1 H2. destruct (Z_le_gt_dec 0 e) as [Pe|Ne].
  - assert (Qz : (q == inject_Z (m * 2 ^ e))%Q). { rewrite Hq, inject_Z_mult. unfold dyadic. rewrite two_pow by exact Pe. reflexivity. }
    apply (double_comp (inject_Z (m * 2 ^ e - 1))). { rewrite Qz. unfold Z.sub. rewrite inject_Z_plus. reflexivity. }
    rewrite Qz in H1, H2. change 1%Q with (inject_Z 1) in H1. rewrite <- Zle_Qle in H1, H2. apply int_double. lia.
  - exists (m - 2 ^ (- e)), e. assert (P : 0 < 2 ^ (- e)) by (apply Z.pow_pos_nonneg; lia).
    assert (One : (dyadic (2 ^ (- e)) e == 1)%Q). { unfold dyadic. rewrite two_pow by lia. rewrite <- two_plus. replace (- e + e) with 0 by lia. reflexivity. }
    assert (M : 2 ^ (- e) <= m). { destruct (Z_le_gt_dec (2 ^ (- e)) m) as [H|H]; [exact H|exfalso]. rewrite Hq, <- One in H1. unfold dyadic in H1. pose proof (two_pos e) as TP. apply Qmult_lt_0_le_reg_r in H1; [|exact TP]. rewrite <- Zle_Qle in H1. lia. }
    split; [lia|]. split; [exact He|]. unfold Z.sub. rewrite dy_add, dy_opp, One, Hq. reflexivity.
Qed.

(** The loop of the factorial multiplies by next, next - 1, ..., each of which it has exactly. *)
Lemma loop_chain fuel0 : forall k fuel total next r, stands_for next r -> (inject_Z (Z.of_nat k) <= r)%Q -> (r < inject_Z (Z.of_nat k) + 1)%Q -> (r <= inject_Z (2 ^ 53))%Q -> (k <= fuel)%nat ->
  exists fs p rest, fact_loop (f64_num fuel0) fuel total next = Some (Ok (p, rest)) /\ List.length fs = k /\
    (forall i, (i < k)%nat -> stands_for (nth i fs f_zero) (r - inject_Z (Z.of_nat i))) /\ in_steps ieee_product total fs p /\ stands_for rest (r - inject_Z (Z.of_nat k)).
Proof.
  induction k as [|k IH]; intros fuel total next r Hn L1 L2 L3 Hf.
  - exists [], total, next. change (inject_Z (Z.of_nat 0)) with 0%Q in *. assert (C : n_ge (f64_num fuel0) next (n_one (f64_num fuel0)) = false).
    { unfold n_ge. cbn [n_cmp n_one f64_num]. rewrite (cmp_exact _ _ _ _ Hn one_stands). assert (X : (r ?= 1)%Q = Lt) by (apply (proj1 (Qlt_alt _ _)); lra). rewrite X. reflexivity. }
    split; [destruct fuel; cbn [fact_loop]; rewrite C; reflexivity|]. split; [reflexivity|]. split; [intros i Hi; lia|]. split; [constructor|]. apply (stands_comp _ r); [ring|exact Hn].
  - destruct fuel as [|fuel]; [lia|]. cbn [fact_loop]. rewrite Nat2Z.inj_succ in *. unfold Z.succ in *. rewrite inject_Z_plus in *. change (inject_Z 1) with 1%Q in *.
    assert (K0 : (0 <= inject_Z (Z.of_nat k))%Q) by (change 0%Q with (inject_Z 0); rewrite <- Zle_Qle; lia).
    assert (C : n_ge (f64_num fuel0) next (n_one (f64_num fuel0)) = true).
    { unfold n_ge. cbn [n_cmp n_one f64_num]. rewrite (cmp_exact _ _ _ _ Hn one_stands). destruct (r ?= 1)%Q eqn:C; try reflexivity. apply (proj2 (Qlt_alt _ _)) in C. lra. }
    rewrite C. cbn [n_mul n_sub n_one f64_num].
    assert (S1 : stands_for (f_sub next f_one) (r - 1)). { apply sub_exact; [exact Hn|exact one_stands|]. apply minus_one_double; [apply (stands_double _ _ Hn)|lra|exact L3]. }
    destruct (IH fuel (f_mul total next) (f_sub next f_one) (r - 1)%Q S1) as (fs & p & rest & F1 & F2 & F3 & F4 & F5); [lra|lra|lra|lia|].
    exists (next :: fs), p, rest. split; [exact F1|]. split; [cbn; lia|]. split; [|split].
    + intros [|i] Hi; cbn [nth]. { apply (stands_comp _ r); [change (inject_Z (Z.of_nat 0)) with 0%Q; ring|exact Hn]. }
      apply (stands_comp _ (r - 1 - inject_Z (Z.of_nat i))); [|apply F3; lia]. rewrite Nat2Z.inj_succ. unfold Z.succ. rewrite inject_Z_plus. change (inject_Z 1) with 1%Q. ring.
    + apply (In_steps_cons _ total next fs (f_mul total next)); [apply product_ieee|exact F4].
    + apply (stands_comp _ (r - 1 - inject_Z (Z.of_nat k))); [ring|exact F5].
Qed.

Section Call.
Context {W : Type}.
Variable fuel : nat.
Variable L : libm.
Variable rnd : W -> f64 * W.
Variable docs : bool.
Variable E : env.
Variable dbg : bool.
Variable cf : config.
Variable d : dctx f64 W.
Hypothesis Hd : f64_context fuel L rnd docs E dbg cf d.
Lemma factorial_is x w : apply_unary (to_ctx E d) (lit "!") x w = (match factorial (f64_num fuel) L fuel x with Some r => r | None => Panic end, w).
Proof.
  unfold apply_unary. assert (G : get_unary (to_ctx E d) (lit "!") = Some (op_factorial (f64_num fuel) L)).
  { destruct Hd as [H|H]; [exact (checked_un (f64_num fuel) L rnd docs E dbg cf d 2 _ (lit "!") H eq_refl (alike_refl _))|exact (unchecked_un (f64_num fuel) L rnd E dbg cf d 2 _ (lit "!") H eq_refl (alike_refl _))]. }
  rewrite G. reflexivity.
Qed.
Lemma above_one x q k : stands_for x q -> (1 <= k)%nat -> (inject_Z (Z.of_nat k) <= q)%Q -> (q < inject_Z (Z.of_nat k) + 1)%Q -> (1 < q)%Q -> (q <= inject_Z (2 ^ 53))%Q -> (k <= fuel)%nat ->
  exists fs p rest, List.length fs = pred k /\ (forall i, (i < pred k)%nat -> stands_for (nth i fs f_zero) (q - inject_Z (Z.of_nat (S i)))) /\ in_steps ieee_product x fs p /\ stands_for rest (q - inject_Z (Z.of_nat k)) /\
    factorial (f64_num fuel) L fuel x = Some (if f_is_zero rest then Ok p else Ok (f_mul p (gamma L (f_add rest f_one)))).
Proof.
  intros Hx K1 K2 K3 Q1 Q2 Hf. destruct k as [|k]; [lia|]. rewrite Nat2Z.inj_succ in *. unfold Z.succ in *. rewrite inject_Z_plus in *. change (inject_Z 1) with 1%Q in *.
  assert (K0 : (0 <= inject_Z (Z.of_nat k))%Q) by (change 0%Q with (inject_Z 0); rewrite <- Zle_Qle; lia).
  assert (S1 : stands_for (f_sub x f_one) (q - 1)). { apply sub_exact; [exact Hx|exact one_stands|]. apply minus_one_double; [apply (stands_double _ _ Hx)|lra|exact Q2]. }
  destruct (loop_chain fuel k fuel x (f_sub x f_one) (q - 1)%Q S1) as (fs & p & rest & F1 & F2 & F3 & F4 & F5); [lra|lra|lra|lia|].
  exists fs, p, rest. split; [exact F2|]. split; [|split; [exact F4|split]].
  - intros i Hi. apply (stands_comp _ (q - 1 - inject_Z (Z.of_nat i))); [|apply F3; exact Hi]. rewrite Nat2Z.inj_succ. unfold Z.succ. rewrite inject_Z_plus. change (inject_Z 1) with 1%Q. ring.
  - apply (stands_comp _ (q - 1 - inject_Z (Z.of_nat k))); [ring|exact F5].
  - unfold factorial. unfold n_lt. cbn [n_cmp n_is_zero n_is_one n_zero n_one n_sub f64_num]. rewrite (cmp_exact _ _ _ _ Hx zero_stands), (cmp_exact _ _ _ _ Hx one_stands).
    assert (C0 : (q ?= 0)%Q = Gt) by (apply (proj1 (Qgt_alt _ _)); lra). assert (C1 : (q ?= 1)%Q = Gt) by (apply (proj1 (Qgt_alt _ _)); lra). rewrite C0, C1.
    assert (Z0 : f_is_zero x = false). { apply not_true_iff_false. rewrite (is_zero_exact x _ Hx). intros Z. lra. }
    rewrite Z0. cbn [orb]. rewrite F1. cbn [n_to_f64 n_from_f64 f64_num or_overflow]. destruct (f_is_zero rest); reflexivity.
Qed.
End Call.

(** ** Numbers that are not whole *)
(** Below 1: the gamma function of the code (utils/gamma.rs), of x + 1 rounded. *)
Theorem C74_fraction_below_one : forall W fuel L (rnd : W -> f64 * W) docs E dbg cf d, f64_context fuel L rnd docs E dbg cf d ->
  forall x q w, stands_for x q -> (0 < q < 1)%Q ->
  exists s, rounds (q + 1) s /\ apply_unary (to_ctx E d) (lit "!") x w = (Ok (gamma L s), w).
Proof.
  intros W fuel L rnd docs E dbg cf d Hd x q w Hx [Q0 Q1]. exists (f_add x f_one). split; [apply add_rounds; [exact Hx|exact one_stands]|].
  rewrite (factorial_is fuel L rnd docs E dbg cf d Hd). unfold factorial, n_lt. cbn [n_cmp n_is_zero n_is_one n_zero n_one n_sub f64_num]. rewrite (cmp_exact _ _ _ _ Hx zero_stands), (cmp_exact _ _ _ _ Hx one_stands).
  assert (C0 : (q ?= 0)%Q = Gt) by (apply (proj1 (Qgt_alt _ _)); lra). assert (C1 : (q ?= 1)%Q = Lt) by (apply (proj1 (Qlt_alt _ _)); lra). rewrite C0, C1.
  assert (Z0 : f_is_zero x = false). { apply not_true_iff_false. rewrite (is_zero_exact x _ Hx). intros Z. lra. }
  rewrite Z0. reflexivity.
Qed.
Print Assumptions C74_fraction_below_one.
(** Above 1, with whole part k: the product x (x - 1) ... (x - k + 1), rounded at each step from left to right, times the gamma
    function of x - k + 1. *)
Theorem C74_fraction : forall W fuel L (rnd : W -> f64 * W) docs E dbg cf d, f64_context fuel L rnd docs E dbg cf d ->
  forall x q k w, stands_for x q -> (1 <= k)%nat -> (inject_Z (Z.of_nat k) < q < inject_Z (Z.of_nat k) + 1)%Q -> (q <= inject_Z (2 ^ 53))%Q -> (k <= fuel)%nat ->
  exists fs p s z, List.length fs = pred k /\ (forall i, (i < pred k)%nat -> stands_for (nth i fs f_zero) (q - inject_Z (Z.of_nat (S i)))) /\ in_steps ieee_product x fs p /\
    rounds (q - inject_Z (Z.of_nat k) + 1) s /\ ieee_product p (gamma L s) z /\ apply_unary (to_ctx E d) (lit "!") x w = (Ok z, w).
Proof.
  intros W fuel L rnd docs E dbg cf d Hd x q k w Hx K1 [K2 K3] Q2 Hf. assert (KQ : (1 <= inject_Z (Z.of_nat k))%Q) by (change 1%Q with (inject_Z 1); rewrite <- Zle_Qle; lia).
  destruct (above_one fuel L x q k Hx K1) as (fs & p & rest & F1 & F2 & F3 & F4 & F5); [lra|lra|lra|lra|lia|].
  exists fs, p, (f_add rest f_one), (f_mul p (gamma L (f_add rest f_one))). split; [exact F1|]. split; [exact F2|]. split; [exact F3|]. split; [apply add_rounds; [exact F4|exact one_stands]|]. split; [apply product_ieee|].
  rewrite (factorial_is fuel L rnd docs E dbg cf d Hd), F5. assert (Z0 : f_is_zero rest = false). { apply not_true_iff_false. rewrite (is_zero_exact rest _ F4). intros Z. lra. }
  rewrite Z0. reflexivity.
Qed.
Print Assumptions C74_fraction.
(** Its argument is between 1 and 2: the branch of utils/gamma.rs for arguments below 1/2 is never taken. *)
Theorem C74_gamma_range : forall q s, (0 < q < 1)%Q -> rounds (q + 1) s -> exists p, stands_for s p /\ (1 <= p <= 2)%Q.
Proof.
  intros q s [Q0 Q1] R. assert (TH : (2 < overflow_threshold)%Q) by reflexivity. assert (A : (Qabs (q + 1) < overflow_threshold)%Q) by (rewrite Qabs_pos by lra; lra).
  destruct (proj1 R A) as (p & P & _). exists p. split; [exact P|]. split.
  - apply (proj2 (rounds_le _ _ _ 1 R P A ltac:(apply (int_double 1); lia))). lra.
  - apply (proj1 (rounds_le _ _ _ 2 R P A ltac:(apply (int_double 2); lia))). lra.
Qed.
Print Assumptions C74_gamma_range.

(** ** Whole numbers above the exact range *)
Definition u : Q := 2 ^ (-53).
Lemma u_val : (u == 1 # 9007199254740992)%Q. Proof. reflexivity. Qed.
Lemma inf_steps fs p : (forall y, In y fs -> exists F, stands_for y F /\ (1 <= F)%Q) -> in_steps ieee_product (S754_infinity false) fs p -> p = S754_infinity false.
Proof.
  revert p. induction fs as [|y ys IH]; intros p H S; inversion S as [|? ? ? b ? O S']; subst; [reflexivity|]. assert (EB : b = S754_infinity false).
  - destruct (H y (or_introl eq_refl)) as (F & F1 & F2). destruct y as [t|t| |t m e]; cbn [stands_for] in F1; [lra|contradiction|contradiction|].
    cbn [ieee_product] in O. rewrite (proj1 (negative_sign (S754_finite t m e) F F1)) in O by lra. exact O.
  - subst b. apply IH; [intros y' Hy; apply H; right; exact Hy|exact S'].
Qed.
Definition product (fs : list Q) : Q := fold_right Qmult 1%Q fs.
Lemma product_ge1 Fs : (forall F, In F Fs -> (1 <= F)%Q) -> (1 <= product Fs)%Q.
Proof.
  induction Fs as [|F Fs IH]; intros H; cbn [product fold_right]; [lra|]. assert (1 <= F)%Q by (apply H; left; reflexivity). assert (1 <= product Fs)%Q by (apply IH; intros; apply H; right; assumption). unfold product in *. nra.
Qed.
Lemma chain_error (fs : list f64) : forall Fs a A p, Forall2 stands_for fs Fs -> (forall F, In F Fs -> (1 <= F)%Q) -> stands_for a A -> (1 <= A)%Q -> in_steps ieee_product a fs p -> (Z.of_nat (List.length fs) <= 2 ^ 52) ->
  let N := inject_Z (Z.of_nat (List.length fs)) in let T := (A * product Fs)%Q in
  (p = S754_infinity false /\ (overflow_threshold <= T * (1 + 2 * N * u))%Q) \/ (exists P, stands_for p P /\ (T * (1 - N * u) <= P)%Q /\ (P <= T * (1 + 2 * N * u))%Q).
Proof.
  induction fs as [|f fs IH]; intros Fs a A p H2 HF Ha HA S HN; inversion H2 as [|? F ? Fs' Hf H2' E1 E2]; subst; inversion S as [|? ? ? b ? O S']; subst; cbv zeta.
  - right. exists A. cbn [product fold_right List.length]. change (inject_Z (Z.of_nat 0)) with 0%Q. split; [exact Ha|]. split; lra.
  - assert (F1 : (1 <= F)%Q) by (apply HF; left; reflexivity). assert (HF' : forall G, In G Fs' -> (1 <= G)%Q) by (intros; apply HF; right; assumption).
    pose proof (product_ge1 Fs' HF') as R1. cbn [List.length] in *. rewrite Nat2Z.inj_succ in *. unfold Z.succ in *. set (n := Z.of_nat (List.length fs)) in *. assert (n0 : 0 <= n) by (unfold n; lia).
    rewrite inject_Z_plus. change (inject_Z 1) with 1%Q. assert (N0 : (0 <= inject_Z n)%Q) by (change 0%Q with (inject_Z 0); rewrite <- Zle_Qle; exact n0).
    assert (N1 : (inject_Z n + 1 <= 4503599627370496)%Q). { change 1%Q with (inject_Z 1). rewrite <- inject_Z_plus. change 4503599627370496%Q with (inject_Z (2 ^ 52)). rewrite <- Zle_Qle. lia. }
    assert (U : (u == 1 # 9007199254740992)%Q) by reflexivity. change (product (F :: Fs')) with (F * product Fs')%Q. set (R := product Fs') in *.
    assert (AF : (1 <= A * F)%Q) by nra.
    assert (OB : rounds (A * F) b).
    { destruct a as [t|t| |t m e]; destruct f as [t'|t'| |t' m' e']; cbn [stands_for] in Ha, Hf; try contradiction; cbn [ieee_product] in O; apply (O A F); assumption. }
    destruct (threshold_cases (A * F)) as [C|[C|C]]; [| |pose proof threshold_pos; lra].
    + destruct (proj1 OB C) as (B & HB & _). destruct (error_bound _ _ _ OB HB C) as [EB|[EB _]].
      2:{ exfalso. rewrite Qabs_pos in EB by lra. assert ((2 ^ (-1022) < 1)%Q) by reflexivity. lra. }
      rewrite (Qabs_pos (A * F)) in EB by lra. change (2 ^ (-53))%Q with u in EB. apply Qabs_Qle_condition in EB.
      assert (B1 : (1 <= B)%Q) by (apply (proj2 (rounds_le _ _ _ 1 OB HB C ltac:(apply (int_double 1); lia))); exact AF).
      specialize (IH Fs' b B p H2' HF' HB B1 S' ltac:(lia)). cbv zeta in IH. fold n in IH. set (N := inject_Z n) in *. clearbody N. set (X := (A * F)%Q) in *. assert (TX : (A * (F * R) == X * R)%Q) by (unfold X; ring).
      fold R in IH. clearbody R X. clear - IH EB U R1 AF N0 N1 B1 TX.
      assert (XR : (1 <= X * R)%Q) by nra. assert (BL : (X * (1 - u) <= B)%Q) by lra. assert (BU : (B <= X * (1 + u))%Q) by lra.
      assert (L1 : (X * R * (1 - u) <= B * R)%Q) by nra. assert (L2 : (B * R <= X * R * (1 + u))%Q) by nra. set (Y := (X * R)%Q) in *. set (Z := (B * R)%Q) in *. clearbody Y Z. clear BL BU EB. rewrite U in L1, L2.
      assert (G2 : (Z * (1 + 2 * N * (1 # 9007199254740992)) <= Y * (1 + 2 * (N + 1) * (1 # 9007199254740992)))%Q).
      { apply Qle_trans with (Y * (1 + (1 # 9007199254740992)) * (1 + 2 * N * (1 # 9007199254740992)))%Q; [apply Qmult_le_compat_r; [exact L2|lra]|].
        assert ((1 + (1 # 9007199254740992)) * (1 + 2 * N * (1 # 9007199254740992)) <= 1 + 2 * (N + 1) * (1 # 9007199254740992))%Q by lra. setoid_replace (Y * (1 + (1 # 9007199254740992)) * (1 + 2 * N * (1 # 9007199254740992)))%Q with ((1 + (1 # 9007199254740992)) * (1 + 2 * N * (1 # 9007199254740992)) * Y)%Q by ring. rewrite (Qmult_comm Y). apply Qmult_le_compat_r; [assumption|lra]. }
      assert (G1 : (Y * (1 - (N + 1) * (1 # 9007199254740992)) <= Z * (1 - N * (1 # 9007199254740992)))%Q).
      { apply Qle_trans with (Y * (1 - (1 # 9007199254740992)) * (1 - N * (1 # 9007199254740992)))%Q; [|apply Qmult_le_compat_r; [exact L1|lra]].
        assert (1 - (N + 1) * (1 # 9007199254740992) <= (1 - (1 # 9007199254740992)) * (1 - N * (1 # 9007199254740992)))%Q by lra. setoid_replace (Y * (1 - (1 # 9007199254740992)) * (1 - N * (1 # 9007199254740992)))%Q with ((1 - (1 # 9007199254740992)) * (1 - N * (1 # 9007199254740992)) * Y)%Q by ring. rewrite (Qmult_comm Y). apply Qmult_le_compat_r; [assumption|lra]. }
      destruct IH as [[I1 I2]|(P & I1 & I2 & I3)]; [left; split; [exact I1|]; rewrite U, TX in *; lra|right; exists P; split; [exact I1|]; rewrite U, TX in *; split; lra].
    + left. assert (b = S754_infinity false) by (apply (proj1 (proj2 OB)); exact C). subst b. split.
      * apply (inf_steps fs); [|exact S']. intros y Hy. clear - H2' HF' Hy. induction H2' as [|f' F' fs' Fs'' Hf' H' IH']; [contradiction|]. destruct Hy as [->|Hy]; [exists F'; split; [exact Hf'|apply HF'; left; reflexivity]|apply IH'; [intros; apply HF'; right; assumption|exact Hy]].
      * set (N := inject_Z n) in *. clearbody N. rewrite U. set (X := (A * F)%Q) in *. assert (TX : (A * (F * R) == X * R)%Q) by (unfold X; ring). rewrite TX. assert (X <= X * R)%Q by nra. assert (0 <= (N + 1) * (1 # 9007199254740992))%Q by lra. set (Y := (X * R)%Q) in *. set (K := ((N + 1) * (1 # 9007199254740992))%Q) in *. assert (E : (1 + 2 * (N + 1) * (1 # 9007199254740992) == 1 + 2 * K)%Q) by (unfold K; ring). rewrite E. clearbody Y K. nra.
Qed.

Fixpoint downs (k : nat) : list Q := match k with 0%nat => [] | S j => inject_Z (Z.of_nat k) :: downs j end.
Lemma downs_fact k : (product (downs k) == inject_Z (fact k))%Q.
Proof. induction k as [|k IH]; [reflexivity|]. cbn [downs product fold_right]. unfold product in IH. rewrite IH. cbn [fact]. rewrite inject_Z_mult. reflexivity. Qed.
Lemma downs_ge k F : In F (downs k) -> (1 <= F)%Q.
Proof. induction k as [|k IH]; intros H; [contradiction|]. destruct H as [<-|H]; [change 1%Q with (inject_Z 1); rewrite <- Zle_Qle; lia|apply IH, H]. Qed.
Lemma downs_stand k : forall (fs : list f64) q, List.length fs = k -> (q == inject_Z (Z.of_nat (S k)))%Q -> (forall i, (i < k)%nat -> stands_for (nth i fs f_zero) (q - inject_Z (Z.of_nat (S i)))) -> Forall2 stands_for fs (downs k).
Proof.
  induction k as [|k IH]; intros [|f fs] q Hl Hq H; try discriminate; cbn [downs]; constructor.
  - specialize (H 0%nat ltac:(lia)). cbn [nth] in H. apply (stands_comp _ _ _) with (2 := H). rewrite Hq, !Nat2Z.inj_succ. unfold Z.succ. rewrite !inject_Z_plus. change (inject_Z (Z.of_nat 0)) with 0%Q. ring.
  - apply (IH fs (inject_Z (Z.of_nat (S k)))); [cbn in Hl; lia|reflexivity|]. intros i Hi. specialize (H (S i) ltac:(lia)). cbn [nth] in H. apply (stands_comp _ _ _) with (2 := H). rewrite Hq, !Nat2Z.inj_succ. unfold Z.succ. rewrite !inject_Z_plus. ring.
Qed.
Lemma fact_grows n m : (n <= m)%nat -> fact n <= fact m.
Proof. induction 1 as [|m _ IH]; [lia|]. cbn [fact]. pose proof (fact_pos m). nia. Qed.
Lemma stands_max x p : stands_for x p -> (p <= dyadic (2 ^ 53 - 1) 971)%Q.
Proof.
  intros H. destruct x as [s|s| |s m e]; cbn [stands_for] in H; try contradiction.
  - rewrite H. discriminate.
  - destruct H as ((He & Hm & _) & Hp). rewrite Hp. destruct s.
    + apply Qle_trans with 0%Q; [|discriminate]. rewrite <- (dy_zero e). unfold dyadic. apply Qmult_le_compat_r; [rewrite <- Zle_Qle; lia|apply Qlt_le_weak, two_pos].
    + unfold dyadic. apply Qle_trans with (inject_Z (2 ^ 53 - 1) * 2 ^ e)%Q; [apply Qmult_le_compat_r; [rewrite <- Zle_Qle; lia|apply Qlt_le_weak, two_pos]|]. rewrite !(Qmult_comm (inject_Z (2 ^ 53 - 1))). apply Qmult_le_compat_r; [apply two_mono; lia|discriminate].
Qed.
Theorem C74_whole : forall W fuel L (rnd : W -> f64 * W) docs E dbg cf d, f64_context fuel L rnd docs E dbg cf d ->
  forall x n w, stands_for x (inject_Z (Z.of_nat n)) -> Z.of_nat n <= 2 ^ 52 -> (n <= fuel)%nat ->
  exists z, apply_unary (to_ctx E d) (lit "!") x w = (Ok z, w) /\
    ((n <= 170)%nat -> exists p, stands_for z p /\ (Qabs (p - inject_Z (fact n)) <= inject_Z (fact n) * (inject_Z (Z.of_nat n) * 2 ^ (-52)))%Q) /\
    ((171 <= n)%nat -> z = S754_infinity false).
Proof.
  intros W fuel L rnd docs E dbg cf d Hd x n w Hx Hn Hf. destruct (le_lt_dec n 1) as [S1|S1].
  - destruct (C56_factorial W fuel L rnd docs E dbg cf d Hd x n w Hx) as (z & Z1 & Z2); [destruct n as [|[|?]]; [cbn; lia|cbn; lia|lia]|exact Hf|].
    exists z. split; [exact Z1|]. split; [|intros; lia]. intros _. exists (inject_Z (fact n)). split; [exact Z2|].
    setoid_replace (inject_Z (fact n) - inject_Z (fact n))%Q with 0%Q by ring. change (Qabs 0) with 0%Q. pose proof (fact_pos n). apply Qmult_le_0_compat; [change 0%Q with (inject_Z 0); rewrite <- Zle_Qle; lia|]. apply Qmult_le_0_compat; [change 0%Q with (inject_Z 0); rewrite <- Zle_Qle; lia|discriminate].
  - destruct n as [|k]; [lia|]. assert (Q1 : (1 < inject_Z (Z.of_nat (S k)))%Q) by (change 1%Q with (inject_Z 1); rewrite <- Zlt_Qlt; lia).
    destruct (above_one fuel L x (inject_Z (Z.of_nat (S k))) (S k) Hx ltac:(lia)) as (fs & p & rest & F1 & F2 & F3 & F4 & F5); [lra|lra|exact Q1|rewrite <- Zle_Qle; lia|exact Hf|].
    cbn [pred] in F1, F2. exists p. rewrite (factorial_is fuel L rnd docs E dbg cf d Hd), F5. assert (Z0 : f_is_zero rest = true) by (apply (is_zero_exact rest _ F4); ring). rewrite Z0. split; [reflexivity|].
    assert (HL : Z.of_nat (List.length fs) <= 2 ^ 52) by (rewrite F1; lia). assert (HA : (1 <= inject_Z (Z.of_nat (S k)))%Q) by lra.
    pose proof (chain_error fs (downs k) x _ p (downs_stand k fs _ F1 (Qeq_refl _) F2) (downs_ge k) Hx HA F3 HL) as C. cbv zeta in C. change (@List.length spec_float fs) with (@List.length f64 fs) in C. rewrite F1 in C.
    assert (PF : (inject_Z (Z.of_nat (S k)) * product (downs k) == inject_Z (fact (S k)))%Q) by (rewrite downs_fact; cbn [fact]; rewrite inject_Z_mult; reflexivity).
    assert (NK : (inject_Z (Z.of_nat (S k)) == inject_Z (Z.of_nat k) + 1)%Q) by (rewrite Nat2Z.inj_succ; unfold Z.succ; rewrite inject_Z_plus; reflexivity).
    assert (K0 : (0 <= inject_Z (Z.of_nat k) <= 4503599627370496)%Q) by (change 0%Q with (inject_Z 0); change 4503599627370496%Q with (inject_Z (2 ^ 52)); rewrite <- !Zle_Qle; lia).
    assert (U : (u == 1 # 9007199254740992)%Q) by reflexivity. assert (FP : (1 <= inject_Z (fact (S k)))%Q) by (change 1%Q with (inject_Z 1); rewrite <- Zle_Qle; apply fact_pos).
    split; intros B.
    + assert (FB : (inject_Z (fact (S k)) <= inject_Z (2 ^ 1020))%Q). { rewrite <- Zle_Qle. apply Z.le_trans with (fact 170); [apply fact_grows; lia|vm_compute; discriminate]. }
      assert (K1 : (inject_Z (Z.of_nat k) <= 170)%Q) by (change 170%Q with (inject_Z 170); rewrite <- Zle_Qle; lia).
      assert (TH : (2 * inject_Z (2 ^ 1020) < overflow_threshold)%Q) by reflexivity. set (th := overflow_threshold) in *. set (big := inject_Z (2 ^ 1020)) in *. clearbody th big.
      destruct C as [[_ C]|(P & P1 & P2 & P3)].
      * exfalso. rewrite PF, U in C. set (T := inject_Z (fact (S k))) in *. set (K := inject_Z (Z.of_nat k)) in *. clearbody T K. assert (T * (1 + 2 * K * (1 # 9007199254740992)) <= T * 2)%Q by (rewrite !(Qmult_comm T); apply Qmult_le_compat_r; lra). lra.
      * exists P. split; [exact P1|]. rewrite PF, U in P2, P3. rewrite NK. change (2 ^ (-52))%Q with (1 # 4503599627370496)%Q. set (T := inject_Z (fact (S k))) in *. set (K := inject_Z (Z.of_nat k)) in *. clearbody T K. apply Qabs_Qle_condition. assert (0 <= T * K)%Q by (apply Qmult_le_0_compat; lra). split; lra.
    + destruct C as [[C _]|(P & P1 & P2 & _)]; [exact C|exfalso]. pose proof (stands_max _ _ P1) as PM. rewrite PF, U in P2.
      assert (FB : (inject_Z (fact 171) <= inject_Z (fact (S k)))%Q) by (rewrite <- Zle_Qle; apply fact_grows; lia). assert (TH : (2 * dyadic (2 ^ 53 - 1) 971 < inject_Z (fact 171))%Q) by (vm_compute; reflexivity).
      set (m := dyadic (2 ^ 53 - 1) 971) in *. set (g := inject_Z (fact 171)) in *. set (T := inject_Z (fact (S k))) in *. set (K := inject_Z (Z.of_nat k)) in *. clearbody T K m g.
      assert (T * (1 # 2) <= T * (1 - K * (1 # 9007199254740992)))%Q by (rewrite !(Qmult_comm T); apply Qmult_le_compat_r; lra). lra.
Qed.
Print Assumptions C74_whole.

(** ** The coefficients of the model of utils/gamma.rs are the doubles nearest to the decimal literals of the source. *)
Lemma literal_rounds (s : bool) m n : rounds ((if s then Zneg m else Zpos m) # n) (f_div (S754_finite s m 0) (S754_finite false n 0)).
Proof.
  unfold f_div, SFdiv. destruct (div_core_rounds m 0 n 0) as (a & e' & l & -> & A & B & C).
  assert (Pm : (0 < dyadic (Zpos m) 0)%Q) by (apply dy_pos; lia). assert (Pn : (0 < dyadic (Zpos n) 0)%Q) by (apply dy_pos; lia).
  assert (V : (dyadic (Zpos m) 0 / dyadic (Zpos n) 0 == Zpos m # n)%Q). { unfold dyadic. rewrite (Qmake_Qdiv (Zpos m) n). change (2 ^ 0)%Q with 1%Q. rewrite !Qmult_1_r. reflexivity. }
  apply (rounds_comp (if xorb s false then - (dyadic (Zpos m) 0 / dyadic (Zpos n) 0) else dyadic (Zpos m) 0 / dyadic (Zpos n) 0)).
  - destruct s; cbn [xorb]; rewrite V; reflexivity.
  - apply aux_rounds; [exact A|exact B|exact C|]. apply Qlt_le_weak. unfold Qdiv. apply Qmult_lt_0_compat; [exact Pm|apply Qinv_lt_0_compat; exact Pn].
Qed.
Definition lanczos_literals : list Q :=
  [9999999999999971 # 10000000000000000; 5715623566586292 # 100000000000000; -5959796035547549 # 100000000000000; 14136097974741746 # 1000000000000000; -4919138160976202 # 10000000000000000;
   3399464998481189 # 100000000000000000000; 4652362892704858 # 100000000000000000000; -9837447530487956 # 100000000000000000000; 1580887032249125 # 10000000000000000000;
   -21026444172410488 # 100000000000000000000; 21743961811521265 # 100000000000000000000; -1643181065367639 # 10000000000000000000; 8441822398385275 # 100000000000000000000;
   -26190838401581408 # 1000000000000000000000; 36899182659531625 # 10000000000000000000000]%Q.
Theorem C74_coefficients : Forall2 rounds lanczos_literals (lanczos_p0 :: lanczos_p) /\ stands_for lanczos_g (47421875 # 10000000).
Proof.
  split; [|vm_compute; repeat split; try discriminate; right; discriminate].
  unfold lanczos_literals, lanczos_p, lanczos_p0.
  repeat (apply Forall2_cons; [match goal with
    | |- rounds (Zpos ?m # ?n) ?x => let y := eval vm_compute in x in let z := eval vm_compute in (f_div (S754_finite false m 0) (S754_finite false n 0)) in
        replace x with (f_div (S754_finite false m 0) (S754_finite false n 0)) by (vm_compute; reflexivity); exact (literal_rounds false m n)
    | |- rounds (Zneg ?m # ?n) ?x => replace x with (f_div (S754_finite true m 0) (S754_finite false n 0)) by (vm_compute; reflexivity); exact (literal_rounds true m n) end|]).
  apply Forall2_nil.
Qed.
Print Assumptions C74_coefficients.
Example C74_case : stands_for (f_of 5 (-1)) (5 # 2) /\ (inject_Z (Z.of_nat 2) < 5 # 2 < inject_Z (Z.of_nat 2) + 1)%Q /\
  fst (apply_unary (to_ctx std_env f_ctx) (lit "!") (f_of 5 (-1)) tt) = Ok (f_mul (f_mul (f_of 5 (-1)) (f_of 3 (-1))) (gamma no_libm (f_of 3 (-1)))) /\
  fst (apply_unary (to_ctx std_env f_ctx) (lit "!") (f_of 1 (-2)) tt) = Ok (gamma no_libm (f_of 5 (-2))) /\
  fst (apply_unary (to_ctx std_env f_ctx) (lit "!") (f_of_Z 30) tt) <> Ok (f_of_Z (fact 30)).
Proof. split; [vm_compute; repeat split; try discriminate; right; discriminate|]. split; [split; reflexivity|]. split; [vm_compute; reflexivity|]. split; [vm_compute; reflexivity|]. vm_compute. discriminate. Qed.
