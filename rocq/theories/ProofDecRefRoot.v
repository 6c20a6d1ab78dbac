(** * The reference decimals meet the specification of square roots' starting values *)
From Coq Require Import List NArith ZArith QArith Qpower Qabs Bool Lia Lqa String.
From Coq Require Import Floats.SpecFloat.
From Verif Require Import ModelBase ModelFloat ModelNum ModelDecimal SpecDouble SpecRound SpecDecimal SpecRoots ProofDouble ProofDouble2 ProofRound ProofRound2 ProofRound3 ProofDecRef.
Local Open Scope Q_scope.

Definition lo : Q := 1 # 10 ^ 30.
Definition hi : Q := 10 ^ 30 # 1.
Lemma rel : forall q z, rounds q z -> lo <= q <= hi -> exists p, stands_for z p /\ (999 # 1000) * q <= p <= (1001 # 1000) * q.
Proof.
  intros q z R [H1 H2]. assert (P0 : 0 < lo) by reflexivity. assert (A : Qabs q == q) by (apply Qabs_pos; lra). assert (T : Qabs q < overflow_threshold) by (rewrite A; eapply Qle_lt_trans; [exact H2|vm_compute; reflexivity]).
  destruct (proj1 R T) as (p & P & _). exists p. split; [exact P|]. destruct (error_bound q z p R P T) as [E|[E _]].
  - rewrite A in E. assert (S : 2 ^ (-53) <= 1 # 1000) by (vm_compute; discriminate). assert (E2 : Qabs (p - q) <= q * (1 # 1000)) by (eapply Qle_trans; [exact E|]; rewrite (Qmult_comm q (2 ^ (-53))), (Qmult_comm q); apply Qmult_le_compat_r; lra). apply Qabs_Qle_condition in E2. lra.
  - exfalso. rewrite A in E. assert (S : 2 ^ (-1022) <= lo) by (vm_compute; discriminate). lra.
Qed.
Lemma root_rel : forall q z, root_rounds q z -> lo <= q <= hi -> exists r, stands_for z r /\ 0 < r /\ q <= (9 # 4) * (r * r) /\ (9 # 16) * (r * r) <= q.
Proof.
  intros q z (r & S & R0 & U & D) [H1 H2]. exists r. split; [exact S|]. assert (P0 : 0 < lo) by reflexivity. destruct (stands_double _ _ S) as (m & e & M & E & V).
  assert (DW : (-1073 <= e <= 971)%Z -> 0 < r -> (9 # 16) * (r * r) <= q).
  { intros E' Rp. assert (Q : ((r + r / 2) / 2) * ((r + r / 2) / 2) <= q). { apply D; [|split; [|]]. - exists m, (e - 1)%Z. split; [exact M|]. split; [lia|]. rewrite V. unfold dyadic. replace e with (1 + (e - 1))%Z at 1 by lia. rewrite two_plus. change (2 ^ 1) with 2. field.
      - apply Qle_shift_div_l; lra.
      - apply Qlt_shift_div_r; lra. } 
    setoid_replace ((r + r / 2) / 2 * ((r + r / 2) / 2)) with ((9 # 16) * (r * r)) in Q by field. exact Q. }
  assert (UP : (-1074 <= e <= 970)%Z -> 0 < r -> q <= (9 # 4) * (r * r)).
  { intros E' Rp. assert (Q : q <= ((r + 2 * r) / 2) * ((r + 2 * r) / 2)). { apply U; [|lra]. exists m, (e + 1)%Z. split; [exact M|]. split; [lia|]. rewrite V. unfold dyadic. rewrite two_plus. change (2 ^ 1) with 2. ring. }
    setoid_replace ((r + 2 * r) / 2 * ((r + 2 * r) / 2)) with ((9 # 4) * (r * r)) in Q by field. exact Q. }
  assert (Rp : 0 < r).
  { destruct (Qlt_le_dec 0 r) as [G|G]; [exact G|exfalso]. assert (R : r == 0) by lra. assert (Q : q <= ((r + dyadic 1 (-1074)) / 2) * ((r + dyadic 1 (-1074)) / 2)). { apply U; [exists 1%Z, (-1074)%Z; split; [reflexivity|split; [lia|reflexivity]]|rewrite R; vm_compute; reflexivity]. }
    rewrite R in Q. assert (T : (0 + dyadic 1 (-1074)) / 2 * ((0 + dyadic 1 (-1074)) / 2) < lo) by (vm_compute; reflexivity). lra. }
  split; [exact Rp|]. pose proof (two_pos e) as Te. assert (Mp : (0 < m)%Z) by (apply (dy_pos m e); rewrite <- V; exact Rp).
  assert (E1 : (e <= 970)%Z).
  { destruct (Z.le_gt_cases e 970) as [G|G]; [exact G|exfalso]. assert (e = 971%Z) by lia. subst e. specialize (DW ltac:(lia) Rp). assert (B : dyadic 1 971 <= r). { rewrite V. unfold dyadic. apply Qmult_le_compat_r; [|lra]. rewrite <- Zle_Qle. lia. }
    assert (B2 : hi <= dyadic 1 971) by (vm_compute; discriminate). assert (B3 : 16 <= hi) by (vm_compute; discriminate). nra. }
  assert (E2 : (-1073 <= e)%Z).
  { destruct (Z.le_gt_cases (-1073) e) as [G|G]; [exact G|exfalso]. assert (e = (-1074)%Z) by lia. subst e. specialize (UP ltac:(lia) Rp). assert (B : r <= dyadic (2 ^ 53) (-1074)). { rewrite V. unfold dyadic. apply Qmult_le_compat_r; [|lra]. rewrite <- Zle_Qle. lia. }
    assert (B2 : dyadic (2 ^ 53) (-1074) <= lo * (1 # 4)) by (vm_compute; discriminate). assert (B3 : lo <= 1) by (vm_compute; discriminate). nra. }
  split; [apply UP; [lia|exact Rp]|apply DW; [lia|exact Rp]].
Qed.
Lemma ref_from : forall z r d, stands_for z r -> (1 # 10 ^ 15) <= r <= 10 ^ 15 # 1 -> d_from_f64 ref_lib z = Some d -> (99 # 100) * r <= val d <= (101 # 100) * r.
Proof.
  intros z r d S [R1 R2] H. assert (R0 : 0 < 1 # 10 ^ 15) by reflexivity. assert (X : exists q, q == r /\ fit q = Some d).
  { destruct z as [s|s| |s m e]; try contradiction; [simpl in S; lra|]. destruct S as [_ S]. cbn [d_from_f64 ref_lib] in H. eexists. split; [|exact H]. rewrite S. unfold dyadic. apply Qmult_comp; [reflexivity|]. destruct (0 <=? e)%Z eqn:G.
    - apply Z.leb_le in G. rewrite two_pow by exact G. reflexivity.
    - apply Z.leb_gt in G. rewrite <- (Z.opp_involutive e) at 2. rewrite Qpower_opp, <- (two_pow (- e)) by lia. pose proof (Z.pow_pos_nonneg 2 (- e) ltac:(lia) ltac:(lia)) as P. unfold inject_Z. destruct (2 ^ (- e))%Z as [|p|p]; try lia. reflexivity. }
  destruct X as (q & Q & F). pose proof (fit_computes q) as (_ & _ & C). rewrite F in C. assert (A : Qabs q == r) by (rewrite Q; apply Qabs_pos; lra). destruct C as (z' & Z1 & Z2); [rewrite A; eapply Qle_trans; [exact R2|vm_compute; discriminate]|]. injection Z1 as <-.
  destruct (Qlt_le_dec r 3) as [G|G].
  - specialize (Z2 28%Z ltac:(lia)). assert (B : Qabs q * inject_Z (10 ^ 28) < inject_Z (2 ^ 95)) by (rewrite A; apply Qle_lt_trans with (3 * inject_Z (10 ^ 28)); [apply Qmult_le_compat_r; [lra|discriminate]|vm_compute; reflexivity]). specialize (Z2 B). rewrite Q in Z2.
    assert (T : Qabs (val d - r) <= (1 # 100) * r). { apply Qle_trans with (1 # 10 ^ 28).
      - apply (Qmult_le_r _ _ (inject_Z (10 ^ 28))); [reflexivity|]. setoid_replace ((1 # 10 ^ 28) * inject_Z (10 ^ 28)) with 1 by (vm_compute; reflexivity). exact Z2.
      - apply Qle_trans with ((1 # 100) * (1 # 10 ^ 15)); [vm_compute; discriminate|]. rewrite (Qmult_comm _ r), (Qmult_comm _ (1 # 10 ^ 15)). apply Qmult_le_compat_r; [exact R1|discriminate]. }
    clear - T. apply Qabs_Qle_condition in T. lra.
  - specialize (Z2 13%Z ltac:(lia)). assert (B : Qabs q * inject_Z (10 ^ 13) < inject_Z (2 ^ 95)) by (rewrite A; apply Qle_lt_trans with ((10 ^ 15 # 1) * inject_Z (10 ^ 13)); [apply Qmult_le_compat_r; [lra|discriminate]|vm_compute; reflexivity]). specialize (Z2 B). rewrite Q in Z2. change (inject_Z (10 ^ 13)) with (10000000000000 # 1) in Z2.
    assert (T : Qabs (val d - r) <= (1 # 100) * r) by lra. apply Qabs_Qle_condition in T. lra.
Qed.
Theorem ref_roots : good_roots ref_lib val.
Proof.
  intros x f r H. cbn [d_to_f64 ref_lib]. intros F. injection F as <-. destruct (dec_ok x) as [C S]. unfold ten. assert (T : (1 <= 10 ^ scale x <= 10 ^ 28)%Z) by (split; [pose proof (ten_pos (scale x)); lia|apply Z.pow_le_mono_r; lia]).
  assert (V : val x == inject_Z (coef x) / inject_Z (10 ^ scale x)).
  { unfold val. destruct (10 ^ scale x)%Z as [|p|p] eqn:P; try lia. unfold Qdiv, Qinv, inject_Z. simpl. unfold Qmult. simpl. rewrite Z.mul_1_r. reflexivity. }
  set (t := (10 ^ scale x)%Z) in *. set (c := coef x) in *. assert (Tq : 1 <= inject_Z t <= inject_Z (10 ^ 28)) by (split; [change 1 with (inject_Z 1)|]; rewrite <- Zle_Qle; lia).
  assert (C0 : (0 <= c)%Z). { rewrite V in H. destruct (Z.le_gt_cases 0 c) as [G|G]; [exact G|exfalso]. assert (inject_Z c <= -1) by (change (-1) with (inject_Z (-1)); rewrite <- Zle_Qle; lia). assert (inject_Z c / inject_Z t < 0). { apply Qlt_shift_div_r; lra. } lra. }
  destruct (Z.eq_dec c 0) as [Z0|Z0].
  - rewrite Z0 in *. assert (R : f_sqrt (f_div (f_of_Z 0) (f_of_Z t)) = S754_zero false \/ f_sqrt (f_div (f_of_Z 0) (f_of_Z t)) = S754_zero true).
    { change (f_of_Z 0) with (S754_zero false). destruct (rel (inject_Z t) (f_of_Z t) (of_Z_rounds t)) as (p & P & PB); [split; [apply Qle_trans with 1; [vm_compute; discriminate|lra]|eapply Qle_trans; [apply Tq|vm_compute; discriminate]]|].
      destruct (f_of_Z t) as [s|s| |s m e]; try contradiction; [exfalso; simpl in P; lra|].
      destruct s; [right|left]; reflexivity. }
    intros G. assert (G' : Some dzero = Some r) by (destruct R as [R|R]; rewrite R in G; exact G). injection G' as <-. rewrite V. change (val dzero) with 0. change (inject_Z 0) with 0. setoid_replace (0 / inject_Z t) with 0 by (field; lra). lra.
  - assert (Cq : 1 <= inject_Z c <= inject_Z limit) by (split; [change 1 with (inject_Z 1)|]; rewrite <- Zle_Qle; lia).
    destruct (rel _ _ (of_Z_rounds c)) as (p1 & P1 & B1); [split; [apply Qle_trans with 1; [vm_compute; discriminate|lra]|eapply Qle_trans; [apply Cq|vm_compute; discriminate]]|].
    destruct (rel _ _ (of_Z_rounds t)) as (p2 & P2 & B2); [split; [apply Qle_trans with 1; [vm_compute; discriminate|lra]|eapply Qle_trans; [apply Tq|vm_compute; discriminate]]|].
    assert (P20 : 0 < p2) by lra. set (X := val x) in *. assert (XT : X * inject_Z t == inject_Z c) by (rewrite V; field; lra). assert (Q12 : (99 # 100) * X <= p1 / p2 <= (101 # 100) * X).
    { assert (X0 : 0 < X). { rewrite V. apply Qlt_shift_div_l; lra. } assert (X * p2 <= X * ((1001 # 1000) * inject_Z t)) by (rewrite (Qmult_comm X p2), (Qmult_comm X); apply Qmult_le_compat_r; lra). assert (X * ((999 # 1000) * inject_Z t) <= X * p2) by (rewrite (Qmult_comm X p2), (Qmult_comm X); apply Qmult_le_compat_r; lra).
      split; [apply Qle_shift_div_l|apply Qle_shift_div_r]; try lra. }
    assert (XB : (1 # 10 ^ 28) <= X <= inject_Z limit). { rewrite V. split; [apply Qle_shift_div_l; [lra|]|apply Qle_shift_div_r; [lra|]]. - apply Qle_trans with ((1 # 10 ^ 28) * inject_Z (10 ^ 28)); [rewrite (Qmult_comm _ (inject_Z t)), (Qmult_comm _ (inject_Z (10 ^ 28))); apply Qmult_le_compat_r; [apply Tq|discriminate]|]. setoid_replace ((1 # 10 ^ 28) * inject_Z (10 ^ 28)) with 1 by (vm_compute; reflexivity). apply Cq.
      - apply Qle_trans with (inject_Z limit * 1); [lra|]. rewrite (Qmult_comm _ 1), (Qmult_comm _ (inject_Z t)). apply Qmult_le_compat_r; [lra|discriminate]. }
    assert (N2 : ~ p2 == 0) by lra. destruct (rel _ _ (div_rounds _ _ p1 p2 P1 P2 N2)) as (p3 & P3 & B3).
    { split; [apply Qle_trans with ((99 # 100) * (1 # 10 ^ 28)); [vm_compute; discriminate|lra]|apply Qle_trans with ((101 # 100) * inject_Z limit); [lra|vm_compute; discriminate]]. }
    assert (B3' : (98 # 100) * X <= p3 <= (102 # 100) * X) by lra. assert (X0 : 0 < X) by (assert (0 < 1 # 10 ^ 28) by reflexivity; lra).
    destruct (root_rel p3 _ (sqrt_rounds _ p3 P3 ltac:(lra))) as (p4 & P4 & R0 & R1 & R2). { split; [apply Qle_trans with ((98 # 100) * (1 # 10 ^ 28)); [vm_compute; discriminate|lra]|apply Qle_trans with ((102 # 100) * inject_Z limit); [lra|vm_compute; discriminate]]. }
    intros G. assert (RB : (1 # 10 ^ 15) <= p4 <= 10 ^ 15 # 1).
    { split.
      - destruct (Qlt_le_dec p4 (1 # 10 ^ 15)) as [N|N]; [exfalso|exact N]. assert (p4 * p4 <= (1 # 10 ^ 15) * (1 # 10 ^ 15)) by (apply Qle_trans with ((1 # 10 ^ 15) * p4); [apply Qmult_le_compat_r; lra|rewrite (Qmult_comm _ p4); apply Qmult_le_compat_r; [lra|discriminate]]). assert (N3 : (1 # 10 ^ 15) * (1 # 10 ^ 15) <= (1 # 5) * (1 # 10 ^ 28)) by (vm_compute; discriminate). lra.
      - destruct (Qlt_le_dec (10 ^ 15 # 1) p4) as [N|N]; [exfalso|exact N]. assert ((10 ^ 15 # 1) * (10 ^ 15 # 1) <= p4 * p4) by (apply Qle_trans with ((10 ^ 15 # 1) * p4); [rewrite (Qmult_comm _ p4); apply Qmult_le_compat_r; [lra|discriminate]|apply Qmult_le_compat_r; lra]). assert (inject_Z limit <= (1 # 4) * ((10 ^ 15 # 1) * (10 ^ 15 # 1))) by (vm_compute; discriminate). lra. }
    pose proof (ref_from _ p4 r P4 RB G) as B5. set (R := val r) in *. clear - B5 B3' R0 R1 R2 X0. assert (L1 : (99 # 100) * p4 * ((99 # 100) * p4) <= R * R) by nra. assert (L2 : R * R <= (101 # 100) * p4 * ((101 # 100) * p4)) by nra. split; [lra|]. split; lra.
Qed.
