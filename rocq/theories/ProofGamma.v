(** * Rounding errors of Lanczos' sum (for PropGamma.v) *)
From Coq Require Import List NArith ZArith QArith Qabs Qround Bool Lia Lqa String.
From Coq Require Import Floats.SpecFloat.
From Verif Require Import ModelBase ModelFloat ModelGamma SpecText SpecExpr SpecDouble SpecFunctions SpecRound SpecGamma ProofDouble ProofDouble2 ProofRound ProofRound2 ProofRound3 PropFactorial.
Import ListNotations.
Local Open Scope Z_scope.

(** A number not greater than 2^(52-k) is rounded with an error of at most 2^(-k-1). *)
Lemma near_abs k q z : rounds q z -> 0 <= k <= 1000 -> (Qabs q <= 2 ^ (52 - k))%Q -> exists p, stands_for z p /\ (Qabs (p - q) <= 2 ^ (- k) * (1 # 2))%Q.
Proof.
  intros R Hk Hq. assert (TH : (Qabs q < overflow_threshold)%Q).
  { eapply Qle_lt_trans; [exact Hq|]. apply Qle_lt_trans with (2 ^ 52)%Q; [apply two_mono; lia|reflexivity]. }
  destruct (proj1 R TH) as (p & P & N & _). exists p. split; [exact P|].
  destruct (nearest_exists (q * 2 ^ k)) as (m & M). pose proof (two_pos k) as K0. pose proof (two_pos (- k)) as K1.
  assert (KK : (2 ^ k * 2 ^ (- k) == 1)%Q) by (rewrite <- two_plus; replace (k + - k) with 0 by lia; reflexivity).
  assert (D : (Qabs (q - dyadic m (- k)) <= 2 ^ (- k) * (1 # 2))%Q).
  { assert (Z : (q - dyadic m (- k) == (q * 2 ^ k - inject_Z m) * 2 ^ (- k))%Q). { unfold dyadic. setoid_replace ((q * 2 ^ k - inject_Z m) * 2 ^ (- k))%Q with (q * (2 ^ k * 2 ^ (- k)) - inject_Z m * 2 ^ (- k))%Q by ring. rewrite KK. ring. }
    rewrite (Qabs_wd _ _ Z), Qabs_Qmult, (Qabs_pos (2 ^ (- k))) by lra. rewrite (Qmult_comm (2 ^ (- k))). apply Qmult_le_compat_r; [exact M|lra]. }
  rewrite Qabs_Qminus. eapply Qle_trans; [apply (N (dyadic m (- k)))|exact D].
  exists m, (- k). split; [|split; [lia|reflexivity]].
  assert (B : (Qabs (inject_Z m) <= inject_Z (2 ^ 52) + (1 # 2))%Q).
  { assert (Z : (Qabs (inject_Z m) <= Qabs (inject_Z m - q * 2 ^ k) + Qabs (q * 2 ^ k))%Q). { eapply Qle_trans; [|apply Qabs_triangle]. rewrite (Qabs_wd (inject_Z m) (inject_Z m - q * 2 ^ k + q * 2 ^ k)) by ring. apply Qle_refl. }
    rewrite (Qabs_Qminus (inject_Z m)) in Z. assert (Y : (Qabs (q * 2 ^ k) <= inject_Z (2 ^ 52))%Q).
    { rewrite Qabs_Qmult, (Qabs_pos (2 ^ k)) by lra. apply Qle_trans with (2 ^ (52 - k) * 2 ^ k)%Q; [apply Qmult_le_compat_r; [exact Hq|lra]|]. rewrite <- two_plus. replace (52 - k + k) with 52 by lia. apply Qle_refl. }
    lra. }
  assert (B2 : (Qabs (inject_Z m) < inject_Z (2 ^ 53))%Q) by (eapply Qle_lt_trans; [exact B|reflexivity]).
  change (Qabs (inject_Z m)) with (inject_Z (Z.abs m)) in B2. rewrite <- Zlt_Qlt in B2. exact B2.
Qed.
Lemma abs_le a b : (Qabs a <= b)%Q <-> (- b <= a <= b)%Q. Proof. apply Qabs_Qle_condition. Qed.
Lemma quot_abs v D c b : (v * D == c)%Q -> (1 <= D)%Q -> (- b <= c <= b)%Q -> (0 <= b)%Q -> (- b <= v <= b)%Q.
Proof.
  intros E H [H1 H2] Hb. rewrite <- E in H1, H2. clear E. split.
  - destruct (Qlt_le_dec v (- b)) as [L|L]; [exfalso|exact L]. assert (v * D <= v * 1)%Q by (rewrite !(Qmult_comm v); setoid_replace (D * v)%Q with (- (D * - v))%Q by ring; setoid_replace (1 * v)%Q with (- (1 * - v))%Q by ring; apply Qopp_le_compat, Qmult_le_compat_r; lra). lra.
  - destruct (Qlt_le_dec b v) as [L|L]; [exfalso|exact L]. assert (v * 1 <= v * D)%Q by (rewrite !(Qmult_comm v); apply Qmult_le_compat_r; lra). lra.
Qed.
Definition step_error : Q := 3 # 10000000000000.
(** One quotient, c / (q + n). *)
Lemma quotient_error q Y x c C n : (0 < q < 1)%Q -> (Qabs (Y - q) <= 2 ^ (-52))%Q -> (0 <= Y <= 1)%Q -> stands_for x Y -> rounds c C -> (Qabs c <= 60)%Q -> 1 <= n <= 14 ->
  exists T, stands_for (f_div C (f_add x (f_of_Z n))) T /\ (Qabs T <= 62)%Q /\ (Qabs (T - c / (q + inject_Z n)) <= 14 # 100000000000000)%Q.
Proof.
  intros Hq HY HY1 Hx HC Hc Hn. assert (N1 : (1 <= inject_Z n <= 14)%Q) by (change 1%Q with (inject_Z 1); change 14%Q with (inject_Z 14); rewrite <- !Zle_Qle; lia).
  assert (SN : stands_for (f_of_Z n) (inject_Z n)) by (apply of_Z_exact, int_double; lia). set (N := inject_Z n) in *.
  assert (ND : a_double N) by (apply int_double; lia). clearbody N.
  destruct (near_abs 46 c C HC ltac:(lia)) as (c' & C1 & C2); [change (2 ^ (52 - 46))%Q with 64%Q; lra|]. change (2 ^ (- (46)) * (1 # 2))%Q with (1 # 140737488355328)%Q in C2.
  pose proof (add_rounds _ _ _ _ Hx SN) as RD.
  destruct (near_abs 48 (Y + N) (f_add x (f_of_Z n)) RD ltac:(lia)) as (D & D1 & D2); [change (2 ^ (52 - 48))%Q with 16%Q; rewrite Qabs_pos by lra; lra|]. change (2 ^ (- (48)) * (1 # 2))%Q with (1 # 562949953421312)%Q in D2.
  change (2 ^ (-52))%Q with (1 # 4503599627370496)%Q in HY. rewrite abs_le in HY, C2, D2, Hc.
  assert (DN : (1 <= D)%Q). { assert (N <= D)%Q; [|lra]. apply (proj2 (rounds_le _ _ _ N RD D1 ltac:(rewrite Qabs_pos by lra; apply Qle_lt_trans with 15%Q; [lra|reflexivity]) ND)). lra. }
  assert (DZ : ~ (D == 0)%Q) by lra. pose proof (div_rounds _ _ _ _ C1 D1 DZ) as RT. set (v := (c' / D)%Q) in *. assert (V : (v * D == c')%Q) by (unfold v; field; exact DZ).
  set (w := (c / (q + N))%Q). assert (Wq : (w * (q + N) == c)%Q) by (unfold w; field; lra). clearbody v w.
  assert (V1 : (- (61) <= v <= 61)%Q) by (apply (quot_abs v D c'); [exact V|exact DN|split; lra|lra]).
  destruct (near_abs 46 v _ (RT) ltac:(lia)) as (T & T1 & T2); [change (2 ^ (52 - 46))%Q with 64%Q; rewrite abs_le; lra|]. change (2 ^ (- (46)) * (1 # 2))%Q with (1 # 140737488355328)%Q in T2. rewrite abs_le in T2.
  exists T. split; [exact T1|]. split; [rewrite abs_le; lra|]. rewrite abs_le.
  assert (K : ((v - w) * (q + N) == c' - c + v * (q + N - D))%Q) by (rewrite <- V, <- Wq; ring).
  assert (B : (- (2 # 1000000000000000) <= q + N - D <= 2 # 1000000000000000)%Q) by lra. set (d := (q + N - D)%Q) in *. clearbody d.
  assert (VD : (- (122 # 1000000000000000) <= v * d <= 122 # 1000000000000000)%Q) by (clear - V1 B; split; nra).
  assert (KB : (- (130 # 1000000000000000) <= (v - w) * (q + N) <= 130 # 1000000000000000)%Q) by (rewrite K; lra).
  pose proof (quot_abs (v - w) (q + N) _ (130 # 1000000000000000) (Qeq_refl _) ltac:(lra) KB ltac:(lra)). lra.
Qed.
Lemma sum_error q Y x : (0 < q < 1)%Q -> (Qabs (Y - q) <= 2 ^ (-52))%Q -> (0 <= Y <= 1)%Q -> stands_for x Y ->
  forall cs Cs n F P F0 e, Forall2 rounds cs Cs -> (forall c, In c cs -> (Qabs c <= 60)%Q) -> 1 <= n -> n + Z.of_nat (List.length cs) <= 15 -> stands_for F P -> (Qabs (P - F0) <= e)%Q ->
  (Qabs P <= 1020 - 63 * inject_Z (Z.of_nat (List.length cs)))%Q ->
  exists P', stands_for (lanczos_sum x n Cs F) P' /\ (Qabs (P' - (F0 + fractions q n cs)) <= e + inject_Z (Z.of_nat (List.length cs)) * step_error)%Q.
Proof.
  intros Hq HY HY1 Hx. induction cs as [|c cs IH]; intros Cs n F P F0 e H2 Hc Hn Hn2 HF HP HB; inversion H2 as [|? C ? Cs' RC H2']; subst; cbn [lanczos_sum fractions List.length] in *.
  - exists P. split; [exact HF|]. change (inject_Z (Z.of_nat 0)) with 0%Q. rewrite abs_le in *. lra.
  - rewrite Nat2Z.inj_succ in *. unfold Z.succ in *. set (l := Z.of_nat (List.length cs)) in *. assert (L0 : 0 <= l) by (unfold l; lia). rewrite inject_Z_plus in *. change (inject_Z 1) with 1%Q in *.
    assert (LQ : (0 <= inject_Z l)%Q) by (change 0%Q with (inject_Z 0); rewrite <- Zle_Qle; exact L0). set (lq := inject_Z l) in *. clearbody lq.
    destruct (quotient_error q Y x c C n Hq HY HY1 Hx RC (Hc c (or_introl eq_refl)) ltac:(lia)) as (T & T1 & T2 & T3).
    rewrite abs_le in *. destruct (near_abs 42 (P + T) _ (add_rounds _ _ _ _ HF T1) ltac:(lia)) as (P' & P1 & P2); [change (2 ^ (52 - 42))%Q with 1024%Q; rewrite abs_le; lra|].
    change (2 ^ (- (42)) * (1 # 2))%Q with (1 # 8796093022208)%Q in P2. rewrite abs_le in P2. set (w := (c / (q + inject_Z n))%Q) in *. clearbody w.
    destruct (IH Cs' (n + 1) _ P' (F0 + w)%Q (e + step_error)%Q H2' ltac:(intros; apply Hc; right; assumption) ltac:(lia) ltac:(lia) P1) as (R & R1 & R2).
    + unfold step_error. rewrite abs_le. lra.
    + rewrite abs_le. lra.
    + exists R. split; [exact R1|]. rewrite abs_le in *. unfold step_error in *. lra.
Qed.
Lemma literals : lanczos_literals = lanczos_first :: lanczos_rest. Proof. reflexivity. Qed.
Lemma small_coefficients : forall c, In c lanczos_rest -> (Qabs c <= 60)%Q.
Proof. assert (H : forallb (fun c => Qle_bool (Qabs c) 60) lanczos_rest = true) by (vm_compute; reflexivity). intros c Hc. apply Qle_bool_iff. rewrite forallb_forall in H. apply H, Hc. Qed.
(** The sum of the model, against the sum of the source. *)
Lemma factor_error q Y x : (0 < q < 1)%Q -> (Qabs (Y - q) <= 2 ^ (-52))%Q -> (0 <= Y <= 1)%Q -> stands_for x Y ->
  exists P, stands_for (lanczos_sum x 1 lanczos_p lanczos_p0) P /\ (Qabs (P - lanczos_factor q) <= 5 # 1000000000000)%Q.
Proof.
  intros Hq HY HY1 Hx. destruct C74_coefficients as [H2 _]. rewrite literals in H2. inversion H2 as [|? ? ? ? R0 R]; subst.
  destruct (near_abs 52 _ _ (R0) ltac:(lia)) as (p & P1 & P2); [change (2 ^ (52 - 52))%Q with 1%Q; vm_compute; discriminate|]. change (2 ^ (- (52)) * (1 # 2))%Q with (1 # 9007199254740992)%Q in P2.
  destruct (sum_error q Y x Hq HY HY1 Hx lanczos_rest lanczos_p 1 lanczos_p0 p lanczos_first _ R small_coefficients ltac:(lia) ltac:(cbn; lia) P1 P2) as (P & A & B).
  - change (inject_Z (Z.of_nat (List.length lanczos_rest))) with 14%Q. rewrite abs_le in *. unfold lanczos_first in P2. lra.
  - exists P. split; [exact A|]. eapply Qle_trans; [exact B|]. change (inject_Z (Z.of_nat (List.length lanczos_rest))) with 14%Q. vm_compute. discriminate.
Qed.
(** The sum of the source is between 12 and 40. *)
Lemma tail_bound q b : (0 < q)%Q -> (0 <= b)%Q -> forall cs n, 1 <= n -> (forall c, In c cs -> (Qabs c <= b)%Q) -> (Qabs (fractions q n cs) <= inject_Z (Z.of_nat (List.length cs)) * b)%Q.
Proof.
  intros Hq Hb. induction cs as [|c cs IH]; intros n Hn Hc; cbn [fractions List.length]; [change (inject_Z (Z.of_nat 0)) with 0%Q; change (Qabs 0) with 0%Q; lra|].
  rewrite Nat2Z.inj_succ. unfold Z.succ. rewrite inject_Z_plus. change (inject_Z 1) with 1%Q. specialize (IH (n + 1) ltac:(lia) ltac:(intros; apply Hc; right; assumption)). specialize (Hc c (or_introl eq_refl)).
  assert (N1 : (1 <= inject_Z n)%Q) by (change 1%Q with (inject_Z 1); rewrite <- Zle_Qle; exact Hn). set (N := inject_Z n) in *. clearbody N. set (w := (c / (q + N))%Q). assert (Wq : (w * (q + N) == c)%Q) by (unfold w; field; lra). clearbody w.
  rewrite abs_le in *. pose proof (quot_abs w (q + N) c b Wq ltac:(lra) Hc Hb). set (f := fractions q (n + 1) cs) in *. set (l := inject_Z (Z.of_nat (List.length cs))) in *. clearbody f l. lra.
Qed.
Lemma fr_cons q n c cs : fractions q n (c :: cs) = (c / (q + inject_Z n) + fractions q (n + 1) cs)%Q. Proof. reflexivity. Qed.
Lemma factor_range q : (0 < q < 1)%Q -> (12 <= lanczos_factor q <= 40)%Q.
Proof.
  intros Hq. unfold lanczos_factor, lanczos_rest. do 4 rewrite fr_cons. match goal with |- context [fractions q ?n ?l] => set (t := fractions q n l) end. assert (T : (Qabs t <= 1 # 10)%Q).
  { unfold t. eapply Qle_trans; [apply (tail_bound q (1 # 1000)); [lra|lra|lia|]|vm_compute; discriminate].
    match goal with |- forall c, In c ?l -> _ => assert (H : forallb (fun c => Qle_bool (Qabs c) (1 # 1000)) l = true) by (vm_compute; reflexivity) end. intros c Hc. apply Qle_bool_iff. rewrite forallb_forall in H. apply H, Hc. }
  rewrite abs_le in T. clearbody t. cbv [Z.add Pos.add Pos.succ]. change (inject_Z 1) with 1%Q. change (inject_Z 2) with 2%Q. change (inject_Z 3) with 3%Q. change (inject_Z 4) with 4%Q.
  unfold lanczos_first. set (a := (_ / (q + 1))%Q). set (b := (_ / (q + 2))%Q). set (c := (_ / (q + 3))%Q). set (d := (_ / (q + 4))%Q).
  assert (A : (a * (q + 1) == 5715623566586292 # 100000000000000)%Q) by (unfold a; field; lra).
  assert (B : (b * (q + 2) == -5959796035547549 # 100000000000000)%Q) by (unfold b; field; lra).
  assert (C : (c * (q + 3) == 14136097974741746 # 1000000000000000)%Q) by (unfold c; field; lra).
  assert (D : (d * (q + 4) == -4919138160976202 # 10000000000000000)%Q) by (unfold d; field; lra). clearbody a b c d.
  assert (CB : ((7 # 2) <= c <= 5)%Q) by (clear - C Hq; split; nra). assert (DB : (- (1 # 8) <= d <= 0)%Q) by (clear - D Hq; split; nra).
  assert (AB : ((a + b) * ((q + 1) * (q + 2)) == (5715623566586292 # 100000000000000) * (q + 2) - (5959796035547549 # 100000000000000) * (q + 1))%Q).
  { setoid_replace ((a + b) * ((q + 1) * (q + 2)))%Q with ((a * (q + 1)) * (q + 2) + (b * (q + 2)) * (q + 1))%Q by ring. rewrite A, B. ring. }
  set (g := (a + b)%Q) in *. assert (G : ((86 # 10) <= g <= 28)%Q).
  { assert (M : (2 <= (q + 1) * (q + 2) <= 6)%Q) by (split; nra). set (m := ((q + 1) * (q + 2))%Q) in *. clearbody m g. clear A B C D. split; nra. }
  clear - G CB DB T. unfold g in G. lra.
Qed.
Lemma half_stands : stands_for f_half (1 # 2). Proof. vm_compute; repeat split; try discriminate; right; discriminate. Qed.
Lemma t_error q Y x : (0 < q < 1)%Q -> (Qabs (Y - q) <= 2 ^ (-52))%Q -> (0 <= Y <= 1)%Q -> stands_for x Y ->
  (exists A, stands_for (f_add (f_add x lanczos_g) f_half) A /\ (Qabs (A - (q + (47421875 # 10000000) + (1 # 2))) <= 4 # 1000000000000000)%Q) /\
  (exists B, stands_for (f_add x f_half) B /\ (Qabs (B - (q + (1 # 2))) <= 1 # 1000000000000000)%Q).
Proof.
  intros Hq HY HY1 Hx. change (2 ^ (-52))%Q with (1 # 4503599627370496)%Q in HY. rewrite abs_le in HY. pose proof half_stands as H2. destruct C74_coefficients as [_ Hg]. split.
  - destruct (near_abs 49 _ _ (add_rounds _ _ _ _ Hx Hg) ltac:(lia)) as (a & A1 & A2); [change (2 ^ (52 - 49))%Q with 8%Q; rewrite abs_le; split; lra|]. change (2 ^ (- (49)) * (1 # 2))%Q with (1 # 1125899906842624)%Q in A2. rewrite abs_le in A2.
    destruct (near_abs 49 _ _ (add_rounds _ _ _ _ A1 H2) ltac:(lia)) as (A & B1 & B2); [change (2 ^ (52 - 49))%Q with 8%Q; rewrite abs_le; split; lra|]. change (2 ^ (- (49)) * (1 # 2))%Q with (1 # 1125899906842624)%Q in B2. rewrite abs_le in B2.
    exists A. split; [exact B1|]. rewrite abs_le. split; lra.
  - destruct (near_abs 51 _ _ (add_rounds _ _ _ _ Hx H2) ltac:(lia)) as (a & A1 & A2); [change (2 ^ (52 - 51))%Q with 2%Q; rewrite abs_le; split; lra|]. change (2 ^ (- (51)) * (1 # 2))%Q with (1 # 4503599627370496)%Q in A2. rewrite abs_le in A2.
    exists a. split; [exact A1|]. rewrite abs_le. split; lra.
Qed.
Lemma falling_list q k : forall r, (r == q)%Q -> (inject_Z (Z.of_nat k) <= r)%Q -> exists Fs, List.length Fs = k /\ (forall i, (i < k)%nat -> (nth i Fs 0 == q - inject_Z (Z.of_nat i))%Q) /\ (product Fs == falling r k)%Q /\ (forall F, In F Fs -> (1 <= F)%Q).
Proof.
  revert q. induction k as [|k IH]; intros q r E H; [exists []; repeat split; [intros i Hi; lia|intros F []]|].
  rewrite Nat2Z.inj_succ in H. unfold Z.succ in H. rewrite inject_Z_plus in H. change (inject_Z 1) with 1%Q in H. assert (K0 : (0 <= inject_Z (Z.of_nat k))%Q) by (change 0%Q with (inject_Z 0); rewrite <- Zle_Qle; lia).
  destruct (IH (q - 1)%Q (r - 1)%Q ltac:(rewrite E; reflexivity) ltac:(lra)) as (Fs & A & B & C & D). exists (r :: Fs). split; [cbn; lia|]. split; [|split].
  - intros [|i] Hi; cbn [nth]; [change (inject_Z (Z.of_nat 0)) with 0%Q; rewrite E; ring|]. rewrite (B i) by lia. rewrite Nat2Z.inj_succ. unfold Z.succ. rewrite inject_Z_plus. change (inject_Z 1) with 1%Q. ring.
  - cbn [product fold_right falling]. unfold product in C. rewrite C. reflexivity.
  - intros F [<-|HF]; [lra|apply D; exact HF].
Qed.
Lemma falling_bound k : forall q, (inject_Z (Z.of_nat k) <= q)%Q -> (q <= inject_Z (Z.of_nat k) + 1)%Q -> (1 <= falling q k <= inject_Z (SpecOps.fact (S k)))%Q.
Proof.
  induction k as [|k IH]; intros q L U; cbn [falling]; [split; vm_compute; discriminate|]. rewrite Nat2Z.inj_succ in L, U. unfold Z.succ in L, U. rewrite inject_Z_plus in L, U. change (inject_Z 1) with 1%Q in L, U. destruct (IH (q - 1)%Q ltac:(lra) ltac:(lra)) as [A B].
  assert (K0 : (0 <= inject_Z (Z.of_nat k))%Q) by (change 0%Q with (inject_Z 0); rewrite <- Zle_Qle; lia). set (f := falling (q - 1) k) in *. clearbody f.
  assert (E : (inject_Z (SpecOps.fact (S (S k))) == (inject_Z (Z.of_nat k) + 1 + 1) * inject_Z (SpecOps.fact (S k)))%Q).
  { change (SpecOps.fact (S (S k))) with (Z.of_nat (S (S k)) * SpecOps.fact (S k))%Z. rewrite inject_Z_mult, !Nat2Z.inj_succ. unfold Z.succ. rewrite !inject_Z_plus. reflexivity. }
  rewrite E. clear E IH. set (g := inject_Z (SpecOps.fact (S k))) in *. set (j := inject_Z (Z.of_nat k)) in *. clearbody g j. split; [nra|]. apply Qle_trans with (q * g)%Q; [rewrite !(Qmult_comm q); apply Qmult_le_compat_r; lra|apply Qmult_le_compat_r; lra].
Qed.
