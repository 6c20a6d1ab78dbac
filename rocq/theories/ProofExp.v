(** * The exponential as a continued fraction, an enclosure of e *)
From Coq Require Import ZArith QArith Qabs Qreals Reals Lra Lia.
From Verif Require Import ProofReals.
Local Open Scope R_scope.

(** exp x = 1 + 2x/(2 - x + x^2/(6 + x^2/(10 + x^2/(14 + ...)))). The remainders are quotients of the functions [g n], which are
    sinh and its repeated integrals against y: (g (n+1))' = y g n. *)
Fixpoint g (n : nat) (y : R) : R :=
  match n with
  | O => sinh y
  | S m => match m with O => y * cosh y - sinh y | S k => y * y * g k y - (2 * INR k + 3) * g m y end
  end.
Lemma g_SS n y : g (S (S n)) y = y * y * g n y - (2 * INR n + 3) * g (S n) y. Proof. reflexivity. Qed.
Lemma sinh_d y : derivable_pt_lim sinh y (cosh y). Proof. apply derivable_pt_lim_sinh. Qed.
Lemma cosh_d y : derivable_pt_lim cosh y (sinh y). Proof. apply derivable_pt_lim_cosh. Qed.
Lemma sq_d y : derivable_pt_lim (fun y => y * y) y (2 * y).
Proof. replace (2 * y) with (1 * y + y * 1) by ring. apply (derivable_pt_lim_mult id id y 1 1); apply derivable_pt_lim_id. Qed.
Lemma g1_d y : derivable_pt_lim (g 1) y (y * g 0 y).
Proof.
  replace (y * g 0 y) with ((1 * cosh y + y * sinh y) - cosh y) by (cbn [g]; ring).
  apply (derivable_pt_lim_minus (fun y => y * cosh y) sinh); [|apply sinh_d]. apply (derivable_pt_lim_mult id cosh y 1 (sinh y)); [apply derivable_pt_lim_id|apply cosh_d].
Qed.
Lemma gSS_d n y d : derivable_pt_lim (g n) y d -> derivable_pt_lim (g (S n)) y (y * g n y) ->
  derivable_pt_lim (g (S (S n))) y ((2 * y * g n y + y * y * d) - (2 * INR n + 3) * (y * g n y)).
Proof.
  intros H0 H1. apply (derivable_pt_lim_minus (fun y => y * y * g n y) (fun y => (2 * INR n + 3) * g (S n) y)).
  - apply (derivable_pt_lim_mult (fun y => y * y) (g n)); [apply sq_d|exact H0].
  - apply (derivable_pt_lim_scal (g (S n))). exact H1.
Qed.
Lemma g_deriv n : forall y, derivable_pt_lim (g (S n)) y (y * g n y) /\ derivable_pt_lim (g (S (S n))) y (y * g (S n) y).
Proof.
  induction n as [|n IH]; intros y.
  - split; [apply g1_d|]. replace (y * g 1 y) with ((2 * y * g 0 y + y * y * cosh y) - (2 * INR 0 + 3) * (y * g 0 y)) by (cbn [g INR]; ring). apply gSS_d; [apply sinh_d|apply g1_d].
  - destruct (IH y) as [A B]. split; [exact B|]. replace (y * g (S (S n)) y) with ((2 * y * g (S n) y + y * y * (y * g n y)) - (2 * INR (S n) + 3) * (y * g (S n) y)); [apply gSS_d; assumption|].
    rewrite g_SS, S_INR. ring.
Qed.
Lemma gS_d n y : derivable_pt_lim (g (S n)) y (y * g n y). Proof. apply g_deriv. Qed.
Lemma g_0 n : g n 0 = 0.
Proof.
  assert (H : g n 0 = 0 /\ g (S n) 0 = 0); [|apply H]. induction n as [|n [A B]].
  - cbn [g]. rewrite sinh_0. split; ring.
  - split; [exact B|]. rewrite g_SS, A, B. ring.
Qed.
Lemma sinh_pos y : 0 < y -> 0 < sinh y.
Proof. intros H. unfold sinh. pose proof (exp_increasing (- y) y ltac:(lra)). lra. Qed.
Lemma g_pos n : forall y, 0 < y -> 0 < g n y.
Proof.
  induction n as [|n IH]; intros y Hy; [apply sinh_pos, Hy|]. destruct (MVT_cor2 (g (S n)) (fun c => c * g n c) 0 y Hy (fun c _ => gS_d n c)) as (c & E & Hc).
  rewrite g_0, !Rminus_0_r in E. rewrite E. specialize (IH c ltac:(lra)). apply Rmult_lt_0_compat; [apply Rmult_lt_0_compat|]; lra.
Qed.
(** y g n >= g (n+1) *)
Lemma grows n : forall y, 0 <= y -> (forall c, 0 <= c -> exists d, derivable_pt_lim (g n) c d /\ g n c <= d) -> g (S n) y <= y * g n y.
Proof.
  intros y Hy IH. destruct Hy as [Hy| <-]; [|rewrite !g_0; lra].
  assert (G0 : forall c, 0 <= c -> 0 <= g n c) by (intros c [Hc| <-]; [left; apply g_pos, Hc|rewrite g_0; lra]).
  set (f := fun y => y * g n y - g (S n) y).
  assert (Df : forall c, 0 <= c -> exists d, derivable_pt_lim f c d /\ 0 <= d).
  { intros c Hc. destruct (IH c Hc) as (d & D1 & D2). exists ((1 * g n c + c * d) - c * g n c). split; [|specialize (G0 c Hc); nra].
    apply (derivable_pt_lim_minus (fun y => y * g n y) (g (S n))); [|apply gS_d]. apply (derivable_pt_lim_mult id (g n) c 1 d); [apply derivable_pt_lim_id|exact D1]. }
  assert (F0 : f 0 = 0) by (unfold f; rewrite !g_0; ring).
  assert (0 <= f y); [|unfold f in *; lra]. rewrite <- F0. 
  set (f' := fun c => if Rle_dec 0 c then g n c + c * (match n with O => cosh c | S m => c * g m c end) - c * g n c else 0).
  assert (E : forall c, 0 <= c <= y -> derivable_pt_lim f c (f' c) /\ 0 <= f' c).
  { intros c Hc. destruct (Df c ltac:(lra)) as (d & D1 & D2). replace (f' c) with d; [split; assumption|]. unfold f'. destruct (Rle_dec 0 c); [|lra].
    assert (Dn : derivable_pt_lim (g n) c (match n with O => cosh c | S m => c * g m c end)) by (destruct n; [apply sinh_d|apply gS_d]).
    apply (uniqueness_limite f c); [exact D1|]. replace (g n c + c * (match n with O => cosh c | S m => c * g m c end) - c * g n c) with ((1 * g n c + c * (match n with O => cosh c | S m => c * g m c end)) - c * g n c) by ring.
    apply (derivable_pt_lim_minus (fun y => y * g n y) (g (S n))); [|apply gS_d]. apply (derivable_pt_lim_mult id (g n) c 1); [apply derivable_pt_lim_id|exact Dn]. }
  destruct (MVT_cor2 f f' 0 y Hy (fun c Hc => proj1 (E c Hc))) as (c & Eq & Hc). pose proof (proj2 (E c ltac:(lra))). rewrite Rminus_0_r in Eq. assert (0 <= f' c * y) by (apply Rmult_le_pos; lra). lra.
Qed.
Lemma g_le n : forall y, 0 <= y -> g (S n) y <= y * g n y.
Proof.
  induction n as [|n IH]; intros y Hy; apply grows; try exact Hy; intros c Hc.
  - exists (cosh c). split; [apply sinh_d|]. cbn [g]. unfold sinh, cosh. pose proof (exp_pos (- c)). lra.
  - exists (c * g n c). split; [apply gS_d|]. apply IH, Hc.
Qed.

(** [u n] stands for the part of the fraction from 4n+6 on. *)
Lemma fraction x : exists u : nat -> R, (forall n, u n = 4 * INR n + 6 + x * x / u (S n)) /\ (forall n, Rabs x <= u n /\ 4 * INR n + 6 <= u n) /\
  0 < 2 + x * x / u 0%nat - x /\ exp x * (2 + x * x / u 0%nat - x) = 2 + x * x / u 0%nat + x.
Proof.
  destruct (Req_dec x 0) as [->|X].
  { exists (fun n => 4 * INR n + 6). split; [intros n; unfold Rdiv; rewrite !Rmult_0_l; ring|]. split; [intros n; rewrite Rabs_R0; pose proof (pos_INR n); lra|]. rewrite exp_0. unfold Rdiv. split; lra. }
  set (y := Rabs x / 2). assert (Y : 0 < y) by (unfold y; pose proof (Rabs_pos_lt x X); lra).
  assert (YY : x * x = 4 * (y * y)) by (unfold y; replace (4 * (Rabs x / 2 * (Rabs x / 2))) with (Rabs x * Rabs x) by field; rewrite <- Rabs_mult, Rabs_pos_eq; [reflexivity|apply Rle_0_sqr]).
  set (u := fun n => 2 * (y * y) * g n y / g (S n) y). assert (Un : forall n, 0 < u n). { intros n. unfold u. pose proof (g_pos n y Y). pose proof (g_pos (S n) y Y). apply Rdiv_lt_0_compat; [|lra]. apply Rmult_lt_0_compat; [|lra]. nra. }
  assert (R : forall n, u n = 4 * INR n + 6 + x * x / u (S n)).
  { intros n. rewrite YY. unfold u. pose proof (g_pos n y Y). pose proof (g_pos (S n) y Y). pose proof (g_pos (S (S n)) y Y) as P. 
    replace (4 * (y * y) / (2 * (y * y) * g (S n) y / g (S (S n)) y)) with (2 * g (S (S n)) y / g (S n) y) by (field; lra). rewrite g_SS. field. lra. }
  exists u. split; [exact R|]. split.
  { intros n. split.
    - pose proof (g_le n y ltac:(lra)) as Q. pose proof (g_pos n y Y). pose proof (g_pos (S n) y Y). replace (Rabs x) with (2 * y) by (unfold y; field). unfold u.
      apply Rmult_le_reg_r with (g (S n) y); [lra|]. unfold Rdiv. rewrite (Rmult_assoc (2 * (y * y) * g n y)), Rinv_l, Rmult_1_r by lra. nra.
    - rewrite R. specialize (Un (S n)). assert (0 <= x * x / u (S n)); [|lra]. apply Rmult_le_pos; [rewrite YY; nra|left; apply Rinv_0_lt_compat; exact Un]. }
  assert (Z : 2 + x * x / u 0%nat = 2 * y * cosh y / sinh y).
  { rewrite YY. unfold u. pose proof (g_pos 1 y Y) as P. pose proof (sinh_pos y Y) as Q. replace (4 * (y * y) / (2 * (y * y) * g 0 y / g 1 y)) with (2 * g 1 y / g 0 y) by (cbn [g] in *; field; lra). cbn [g]. field. lra. }
  rewrite Z. pose proof (sinh_pos y Y) as Q.
  assert (E : exp y - exp (- y) > 0) by (unfold sinh in Q; lra). pose proof (exp_pos y) as E1. pose proof (exp_pos (- y)) as E2. assert (E3 : exp y * exp (- y) = 1) by (rewrite <- exp_plus, Rplus_opp_r; apply exp_0).
  assert (W : 2 * y * cosh y / sinh y = 2 * y * (exp y + exp (- y)) / (exp y - exp (- y))) by (unfold cosh, sinh; field; lra). rewrite W.
  destruct (Rle_dec 0 x) as [P|P].
  - assert (V : x = 2 * y) by (unfold y; rewrite Rabs_pos_eq by lra; field).
    assert (E4 : 2 * y * (exp y + exp (- y)) / (exp y - exp (- y)) - x = 4 * y * exp (- y) / (exp y - exp (- y))) by (rewrite V; field; lra). rewrite E4. split; [apply Rdiv_lt_0_compat; [|lra]; apply Rmult_lt_0_compat; lra|].
    rewrite V. replace (2 * y) with (y + y) at 1 by ring. rewrite exp_plus. transitivity (4 * y * exp y * (exp y * exp (- y)) / (exp y - exp (- y))); [field; lra|]. rewrite E3. field. lra.
  - assert (V : x = - (2 * y)) by (unfold y; rewrite Rabs_left by lra; field).
    assert (E4 : 2 * y * (exp y + exp (- y)) / (exp y - exp (- y)) - x = 4 * y * exp y / (exp y - exp (- y))) by (rewrite V; field; lra). rewrite E4. split; [apply Rdiv_lt_0_compat; [|lra]; apply Rmult_lt_0_compat; lra|].
    rewrite V. replace (- (2 * y)) with (- y + - y) at 1 by ring. rewrite exp_plus. transitivity (4 * y * exp (- y) * (exp y * exp (- y)) / (exp y - exp (- y))); [field; lra|]. rewrite E3. field. lra.
Qed.

(** ** e *)
Definition E_hat : Q := 27182818284590452353602874714 # 10000000000000000000000000000.
Lemma inv_between a b u c : 0 < a -> a <= u <= b -> c + / b <= c + 1 * 1 / u <= c + / a.
Proof. intros Ha [H1 H2]. rewrite Rmult_1_r. unfold Rdiv. rewrite Rmult_1_l. split; apply Rplus_le_compat_l, Rinv_le_contravar; lra. Qed.
(** The parts from level [14 - n] on, from below and above, as fractions *)
Fixpoint enclose (n : nat) : Q * Q :=
  match n with
  | O => (inject_Z 62, inject_Z 63)
  | S m => let (a, b) := enclose m in let c := inject_Z (58 - 4 * Z.of_nat m) in (Qred (c + / b), Qred (c + / a))%Q
  end.
Lemma enclose_0 : enclose 0 = (inject_Z 62, inject_Z 63). Proof. reflexivity. Qed.
Lemma enclose_S m : enclose (S m) = let (a, b) := enclose m in let c := inject_Z (58 - 4 * Z.of_nat m) in (Qred (c + / b), Qred (c + / a))%Q. Proof. reflexivity. Qed.
Definition e_low : Q := Qred (2 + / snd (enclose 14)).
Definition e_high : Q := Qred (2 + / fst (enclose 14)).
Lemma e_low_is : e_low = Qred (2 + / snd (enclose 14)). Proof. reflexivity. Qed.
Lemma e_high_is : e_high = Qred (2 + / fst (enclose 14)). Proof. reflexivity. Qed.
Opaque enclose e_low e_high.
Lemma Qinv_pos' q : 0 < Q2R q -> Q2R (/ q) = / Q2R q.
Proof. intros H. apply Q2R_inv. intros N. rewrite (Qeq_eqR _ _ N) in H. unfold Q2R in H. cbn in H. lra. Qed.
Lemma e_eq q : 0 < Q2R q -> Q2R (Qred (2 + / q)) = 2 + / Q2R q.
Proof. intros H. rewrite Q2R_red, Q2R_plus, Qinv_pos' by exact H. f_equal. unfold Q2R. cbn. lra. Qed.
Lemma E_enclosed : Rabs (exp 1 - Q2R E_hat) <= / 10 ^ 28.
Proof.
  destruct (fraction 1) as (u & R & B & P & E).
  assert (H : forall n, (n <= 14)%nat -> 0 < Q2R (fst (enclose n)) <= u (14 - n)%nat /\ u (14 - n)%nat <= Q2R (snd (enclose n))).
  { induction n as [|n IH]; intros Hn.
    - change (14 - 0)%nat with 14%nat. rewrite enclose_0. cbn [fst snd]. rewrite !Q2R_Z. destruct (B 14%nat) as [_ B1]. destruct (B 15%nat) as [_ B2]. specialize (R 14%nat). rewrite INR_IZR_INZ in *. cbn [Z.of_nat Pos.of_succ_nat Pos.succ] in *.
      assert (I : 0 < / u 15%nat <= / 1) by (split; [apply Rinv_0_lt_compat; lra|apply Rinv_le_contravar; lra]). unfold Rdiv in R. split; [split|]; lra.
    - specialize (IH ltac:(lia)). rewrite enclose_S. destruct (enclose n) as [a b]. cbn [fst snd] in *. replace (14 - n)%nat with (S (14 - S n)) in IH by lia. set (k := (14 - S n)%nat) in *.
      rewrite !Q2R_red, !Q2R_plus, Q2R_Z, !Qinv_pos' by lra.
      assert (C : IZR (58 - 4 * Z.of_nat n) = 4 * INR k + 6). { rewrite INR_IZR_INZ, <- mult_IZR, <- plus_IZR. f_equal. unfold k. lia. }
      rewrite C, (R k). destruct IH as [[A1 A2] A3]. pose proof (inv_between (Q2R a) (Q2R b) (u (S k)) (4 * INR k + 6) A1 (conj A2 A3)) as [D1 D2]. assert (0 < / Q2R b) by (apply Rinv_0_lt_compat; lra). pose proof (pos_INR k). lra. }
  destruct (H 14%nat (le_n _)) as [[H1 H2] H3]. change (14 - 14)%nat with 0%nat in *.
  destruct (inv_between _ _ _ 2 H1 (conj H2 H3)) as [S1 S2]. rewrite <- (e_eq (snd (enclose 14))) in S1 by lra. rewrite <- (e_eq (fst (enclose 14))) in S2 by lra. rewrite <- e_low_is in S1. rewrite <- e_high_is in S2.
  set (t := 2 + 1 * 1 / u 0%nat) in *. clearbody t. clear - S1 S2 P E.
  assert (W : Q2R (1 # 10000000000000000000000000000) = / 10 ^ 28) by (unfold Q2R; cbn [Qnum Qden]; lra).
  assert (Up : (E_hat + (1 # 10000000000000000000000000000) + 1 <= (E_hat + (1 # 10000000000000000000000000000) - 1) * e_low)%Q) by (vm_compute; discriminate).
  assert (Lo : ((E_hat - (1 # 10000000000000000000000000000) - 1) * e_high <= E_hat - (1 # 10000000000000000000000000000) + 1)%Q) by (vm_compute; discriminate).
  assert (One : Q2R 1 = 1) by (unfold Q2R; cbn; lra). assert (Eb : 2 < Q2R E_hat < 3) by (unfold E_hat, Q2R; cbn [Qnum Qden]; lra).
  apply Qle_Rle in Up, Lo. rewrite Q2R_mult, Q2R_minus, !Q2R_plus, One, W in Up. rewrite Q2R_mult, Q2R_plus, !Q2R_minus, One, W in Lo. set (e := Q2R E_hat) in *. set (a := Q2R e_low) in *. set (b := Q2R e_high) in *. clearbody e a b.
  assert (W0 : 0 < / 10 ^ 28 < / 10) by lra. set (w := / 10 ^ 28) in *. clearbody w. set (f := exp 1) in *. clearbody f. apply Rabs_le.
  assert ((e + w - 1) * a <= (e + w - 1) * t) by (apply Rmult_le_compat_l; lra). assert ((e - w - 1) * t <= (e - w - 1) * b) by (apply Rmult_le_compat_l; lra).
  split.
  - destruct (Rle_dec (e - w) f) as [G|G]; [lra|]. exfalso. assert (f * (t - 1) < (e - w) * (t - 1)) by (apply Rmult_lt_compat_r; lra). lra.
  - destruct (Rle_dec f (e + w)) as [G|G]; [lra|]. exfalso. assert ((e + w) * (t - 1) < f * (t - 1)) by (apply Rmult_lt_compat_r; lra). lra.
Qed.
