(** * Integers as doubles *)
From Coq Require Import List NArith ZArith Bool Lia.
From Coq Require Import Floats.SpecFloat.
From Verif Require Import ModelBase ModelFloat.
Local Open Scope Z_scope.

Lemma digits_bounds : forall m, 2 ^ (Zpos (digits2_pos m) - 1) <= Zpos m < 2 ^ Zpos (digits2_pos m).
Proof.
  induction m as [m IH|m IH|]; cbn [digits2_pos].
  - rewrite Pos2Z.inj_succ. unfold Z.succ. rewrite Z.pow_add_r by lia. replace (Zpos (digits2_pos m) + 1 - 1) with (Zpos (digits2_pos m) - 1 + 1) by lia.
    rewrite Z.pow_add_r by lia. lia.
  - rewrite Pos2Z.inj_succ. unfold Z.succ. rewrite Z.pow_add_r by lia. replace (Zpos (digits2_pos m) + 1 - 1) with (Zpos (digits2_pos m) - 1 + 1) by lia.
    rewrite Z.pow_add_r by lia. lia.
  - simpl. lia.
Qed.
Lemma digits_le : forall m k, 0 < k -> Zpos m < 2 ^ k -> Zpos (digits2_pos m) <= k.
Proof.
  intros m k Hk H. pose proof (digits_bounds m) as [B _]. destruct (Z.le_gt_cases (Zpos (digits2_pos m)) k); [assumption|].
  pose proof (Z.pow_le_mono_r 2 k (Zpos (digits2_pos m) - 1)). lia.
Qed.
Lemma digits_shift : forall d m, Zpos (digits2_pos (shift_pos d m)) = Zpos (digits2_pos m) + Zpos d.
Proof.
  intros d m. unfold shift_pos. induction d as [|d IH] using Pos.peano_ind.
  - simpl. rewrite Pos2Z.inj_succ. lia.
  - rewrite Pos.iter_succ. cbn [digits2_pos]. rewrite Pos2Z.inj_succ, IH, Pos2Z.inj_succ. lia.
Qed.
Lemma shift_value : forall d m, Zpos (shift_pos d m) = Zpos m * 2 ^ Zpos d.
Proof.
  intros d m. unfold shift_pos. induction d as [|d IH] using Pos.peano_ind.
  - simpl. lia.
  - rewrite Pos.iter_succ. rewrite Pos2Z.inj_succ, Z.pow_succ_r by lia. rewrite Pos2Z.inj_xO, IH. lia.
Qed.

Lemma aux_exact : forall s m e, Zpos (digits2_pos m) = 53 -> -1074 <= e <= 971 ->
  binary_round_aux prec emax s (Zpos m) e loc_Exact = S754_finite s m e.
Proof.
  intros s m e Hd He. unfold binary_round_aux, shr_fexp. cbn [shr_record_of_loc Zdigits2]. rewrite Hd.
  assert (F : fexp prec emax (53 + e) - e = 0). { unfold fexp, emin, prec, emax. lia. }
  rewrite F. cbn [shr shr_m loc_of_shr_record round_nearest_even Zdigits2]. rewrite Hd, F. cbn [shr shr_m]. replace (e <=? emax - prec) with true; [reflexivity|]. symmetry. apply Z.leb_le. unfold emax, prec. lia.
Qed.

(** Below 2^53 an integer is a double, with a non-positive exponent. *)
Lemma round_small : forall s m, Zpos m < 2 ^ 53 -> exists m' d, 0 <= d <= 53 /\ Zpos m' = Zpos m * 2 ^ d /\
  binary_round prec emax s m 0 = S754_finite s m' (- d).
Proof.
  intros s m H. pose proof (digits_le m 53 ltac:(lia) H) as D. assert (D0 : 0 < Zpos (digits2_pos m)) by lia.
  unfold binary_round, shl_align. rewrite Z.add_0_r.
  assert (F : fexp prec emax (Zpos (digits2_pos m)) = Zpos (digits2_pos m) - 53) by (unfold fexp, emin, prec, emax; lia). rewrite F.
  destruct (Zpos (digits2_pos m) - 53 - 0) as [|q|q] eqn:Eq; [|lia|].
  - exists m, 0. split; [lia|]. split; [lia|]. rewrite aux_exact by lia. reflexivity.
  - exists (shift_pos q m), (Zpos q). split; [lia|]. split; [apply shift_value|]. rewrite aux_exact; [|rewrite digits_shift; lia|lia].
    f_equal. lia.
Qed.

Lemma trunc_small : forall s m, Zpos m < 2 ^ 53 -> f_trunc_Z (binary_round prec emax s m 0) = Some (if s then Zneg m else Zpos m).
Proof.
  intros s m H. destruct (round_small s m H) as (m' & d & Hd & Hm & ->). cbn [f_trunc_Z].
  assert (A : (if 0 <=? - d then Zpos m' * 2 ^ (- d) else Zpos m' / 2 ^ (- - d)) = Zpos m).
  { destruct (0 <=? - d) eqn:C.
    - apply Z.leb_le in C. replace d with 0 in * by lia. rewrite Hm. simpl. lia.
    - rewrite Hm, Z.opp_involutive. apply Z.div_mul. apply Z.pow_nonzero; lia. }
  rewrite A. destruct s; reflexivity.
Qed.

Lemma trunc_of_Z : forall z, Z.abs z <= 2 ^ 53 -> f_trunc_Z (f_of_Z z) = Some z.
Proof.
  intros z H. destruct (Z.eq_dec (Z.abs z) (2 ^ 53)) as [E|E].
  - destruct (Z.abs_eq_or_opp z) as [A|A]; rewrite A in E.
    + rewrite E. reflexivity.
    + replace z with (- 2 ^ 53) by lia. reflexivity.
  - unfold f_of_Z, f_of, binary_normalize. destruct z as [|m|m]; [reflexivity| |].
    + rewrite trunc_small by lia. reflexivity.
    + rewrite trunc_small by lia. reflexivity.
Qed.

Lemma of_Z_finite : forall z, Z.abs z <= 2 ^ 53 -> f_is_nan (f_of_Z z) = false /\ f_is_infinite (f_of_Z z) = false.
Proof. intros z H. pose proof (trunc_of_Z z H) as T. destruct (f_of_Z z); simpl in T; try discriminate; auto. Qed.

(** Rounding to an integral value leaves such numbers alone. *)
Lemma integral_of_Z : forall adjust z, (forall s a d, 0 < d -> adjust s a 0 d = a) -> Z.abs z <= 2 ^ 53 -> f_integral adjust (f_of_Z z) = f_of_Z z.
Proof.
  intros adjust z Hadj H. destruct (Z.eq_dec (Z.abs z) (2 ^ 53)) as [E|E].
  - destruct (Z.abs_eq_or_opp z) as [A|A]; rewrite A in E.
    + rewrite E. reflexivity.
    + replace z with (- 2 ^ 53) by lia. reflexivity.
  - assert (G : forall s m, Zpos m < 2 ^ 53 -> f_integral adjust (binary_round prec emax s m 0) = binary_round prec emax s m 0).
    { intros s m Hm. destruct (round_small s m Hm) as (m' & d & Hd & Hm' & Hr). rewrite Hr. cbn [f_integral]. destruct (0 <=? - d) eqn:C; [reflexivity|].
      rewrite Z.opp_involutive, Hm', Z.div_mul, Z.mod_mul by (apply Z.pow_nonzero; lia). rewrite Hadj by (apply Z.pow_pos_nonneg; lia). cbn [Z.eqb].
      rewrite <- Hr. unfold binary_normalize. destruct s; reflexivity. }
    unfold f_of_Z, f_of, binary_normalize. destruct z as [|m|m]; [reflexivity|apply G; lia|apply G; lia].
Qed.
Lemma round_of_Z : forall z, Z.abs z <= 2 ^ 53 -> f_round (f_of_Z z) = f_of_Z z.
Proof. intros z H. apply integral_of_Z; [|exact H]. intros s a d Hd. replace (d <=? 2 * 0) with false; [reflexivity|symmetry; apply Z.leb_gt; lia]. Qed.
Lemma floor_of_Z : forall z, Z.abs z <= 2 ^ 53 -> f_floor (f_of_Z z) = f_of_Z z.
Proof. intros z H. apply integral_of_Z; [|exact H]. intros s a d Hd. rewrite andb_false_r. reflexivity. Qed.
Lemma ceil_of_Z : forall z, Z.abs z <= 2 ^ 53 -> f_ceil (f_of_Z z) = f_of_Z z.
Proof. intros z H. apply integral_of_Z; [|exact H]. intros s a d Hd. rewrite andb_false_r. reflexivity. Qed.
Lemma ftrunc_of_Z : forall z, Z.abs z <= 2 ^ 53 -> f_trunc (f_of_Z z) = f_of_Z z.
Proof. intros z H. apply integral_of_Z; [|exact H]. reflexivity. Qed.
Lemma approx_of_Z : forall z, Z.abs z <= 2 ^ 53 -> f_approx (f_of_Z z) = f_of_Z z.
Proof. intros z H. unfold f_approx. rewrite round_of_Z by exact H. destruct (f_lt _ _); reflexivity. Qed.

(** Doubles above 2^53 are even integers. *)
Lemma double_even : forall x z, valid_binary prec emax x = true -> f_trunc_Z x = Some z -> 2 ^ 53 < Z.abs z -> Z.even z = true.
Proof.
  intros x z Hv Ht Hz. destruct x as [s|s| |s m e]; try discriminate; [injection Ht as <-; reflexivity|].
  cbn [valid_binary] in Hv. unfold bounded, canonical_mantissa in Hv. apply andb_true_iff in Hv. destruct Hv as [Hc He].
  apply Zeq_bool_eq in Hc. apply Z.leb_le in He. unfold fexp, emin, prec, emax in Hc.
  assert (D : Zpos (digits2_pos m) <= 53) by lia. pose proof (digits_bounds m) as [_ B].
  assert (Bm : Zpos m < 2 ^ 53). { pose proof (Z.pow_le_mono_r 2 (Zpos (digits2_pos m)) 53). lia. }
  cbn [f_trunc_Z] in Ht. injection Ht as <-. destruct (0 <=? e) eqn:Ce.
  - apply Z.leb_le in Ce. destruct (Z.eq_dec e 0) as [->|Ne]; [exfalso; simpl in Hz; destruct s; lia|].
    assert (Ev : Z.even (Zpos m * 2 ^ e) = true). { rewrite Z.even_mul. replace (Z.even (2 ^ e)) with true; [apply orb_true_r|].
      symmetry. rewrite Z.even_pow by lia. reflexivity. }
    destruct s; [rewrite Z.even_opp|]; exact Ev.
  - exfalso. apply Z.leb_gt in Ce. assert (Q : 0 <= Zpos m / 2 ^ (- e) <= Zpos m).
    { pose proof (Z.pow_pos_nonneg 2 (- e) ltac:(lia) ltac:(lia)). split; [apply Z.div_pos; lia|apply Z.div_le_upper_bound; [lia|nia]]. }
    destruct s; lia.
Qed.
