(** * The size of Lanczos' sum, for the decimal coefficients (for PropDecGamma.v) *)
From Coq Require Import List ZArith QArith Qabs Bool Lia Lqa.
From Verif Require Import SpecGamma SpecDecGamma ProofGamma.
Import ListNotations.
Local Open Scope Z_scope.

Lemma fractions_comp p q : (p == q)%Q -> forall cs n, (fractions p n cs == fractions q n cs)%Q.
Proof. intros E. induction cs as [|c cs IH]; intros n; cbn [fractions]; [reflexivity|]. rewrite (IH (n + 1)), E. reflexivity. Qed.
Lemma tail_small q b : (- (1 # 2) <= q)%Q -> (0 <= b)%Q -> forall cs n, 2 <= n -> (forall c, In c cs -> (Qabs c <= b)%Q) -> (Qabs (fractions q n cs) <= inject_Z (Z.of_nat (List.length cs)) * b)%Q.
Proof.
  intros Hq Hb. induction cs as [|c cs IH]; intros n Hn Hc; cbn [fractions List.length]; [change (inject_Z (Z.of_nat 0)) with 0%Q; change (Qabs 0) with 0%Q; lra|].
  rewrite Nat2Z.inj_succ. unfold Z.succ. rewrite inject_Z_plus. change (inject_Z 1) with 1%Q. specialize (IH (n + 1) ltac:(lia) ltac:(intros; apply Hc; right; assumption)). specialize (Hc c (or_introl eq_refl)).
  assert (N1 : (2 <= inject_Z n)%Q) by (change 2%Q with (inject_Z 2); rewrite <- Zle_Qle; exact Hn). set (N := inject_Z n) in *. clearbody N. set (w := (c / (q + N))%Q). assert (Wq : (w * (q + N) == c)%Q) by (unfold w; field; lra). clearbody w.
  rewrite abs_le in *. pose proof (quot_abs w (q + N) c b Wq ltac:(lra) Hc Hb). set (f := fractions q (n + 1) cs) in *. set (l := inject_Z (Z.of_nat (List.length cs))) in *. clearbody f l. lra.
Qed.
Lemma decimal_factor_range q : (- (1 # 2) <= q <= 1)%Q -> (12 <= decimal_factor q <= 90)%Q.
Proof.
  intros Hq. unfold decimal_factor, decimal_rest. do 4 rewrite fr_cons. match goal with |- context [fractions q ?n ?l] => set (t := fractions q n l) end. assert (T : (Qabs t <= 1 # 10)%Q).
  { unfold t. eapply Qle_trans; [apply (tail_small q (1 # 1000)); [lra|lra|lia|]|vm_compute; discriminate].
    match goal with |- forall c, In c ?l -> _ => assert (H : forallb (fun c => Qle_bool (Qabs c) (1 # 1000)) l = true) by (vm_compute; reflexivity) end. intros c Hc. apply Qle_bool_iff. rewrite forallb_forall in H. apply H, Hc. }
  rewrite abs_le in T. clearbody t. cbv [Z.add Pos.add Pos.succ]. change (inject_Z 1) with 1%Q. change (inject_Z 2) with 2%Q. change (inject_Z 3) with 3%Q. change (inject_Z 4) with 4%Q.
  unfold decimal_first. set (a := (_ / (q + 1))%Q). set (b := (_ / (q + 2))%Q). set (c := (_ / (q + 3))%Q). set (d := (_ / (q + 4))%Q).
  assert (A : (a * (q + 1) == 57156235665862923517 # 1000000000000000000)%Q) by (unfold a; field; lra).
  assert (B : (b * (q + 2) == -59597960355475491248 # 1000000000000000000)%Q) by (unfold b; field; lra).
  assert (C : (c * (q + 3) == 14136097974741747174 # 1000000000000000000)%Q) by (unfold c; field; lra).
  assert (D : (d * (q + 4) == -49191381609762019978 # 100000000000000000000)%Q) by (unfold d; field; lra). clearbody a b c d.
  assert (CB : ((7 # 2) <= c <= 6)%Q) by (clear - C Hq; split; nra). assert (DB : (- (1 # 6) <= d <= 0)%Q) by (clear - D Hq; split; nra).
  assert (AB : ((a + b) * ((q + 1) * (q + 2)) == (57156235665862923517 # 1000000000000000000) * (q + 2) - (59597960355475491248 # 1000000000000000000) * (q + 1))%Q).
  { setoid_replace ((a + b) * ((q + 1) * (q + 2)))%Q with ((a * (q + 1)) * (q + 2) + (b * (q + 2)) * (q + 1))%Q by ring. rewrite A, B. ring. }
  set (g := (a + b)%Q) in *. assert (G : ((86 # 10) <= g <= 76)%Q).
  { assert (M : ((3 # 4) <= (q + 1) * (q + 2) <= 6)%Q) by (split; nra). set (m := ((q + 1) * (q + 2))%Q) in *. clearbody m g. clear A B C D. split; nra. }
  clear - G CB DB T. unfold g in G. lra.
Qed.
(** At -2/5 the sum is about three times that at 2/5. *)
Lemma factor_ratio : (3 * decimal_factor (4 # 10) <= decimal_factor (- (4 # 10)))%Q.
Proof. vm_compute. discriminate. Qed.
