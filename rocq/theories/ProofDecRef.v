(** * A reference implementation of decimal numbers

    Shows that the laws of SpecDecimal can be met, and makes the model of the decimal contexts run. *)
From Coq Require Import List NArith ZArith QArith Qabs Qround Bool Lia Lqa String.
From Coq Require Import Floats.SpecFloat.
From Verif Require Import ModelBase ModelContext ModelNum ModelFloat ModelDecimal SpecDecimal.
Import ListNotations.
Local Open Scope Z_scope.

(** ** Definitions *)
Definition okb (p : Z * Z) : bool := (Z.abs (fst p) <? limit) && (0 <=? snd p) && (snd p <=? 28).
Definition dec : Type := { p : Z * Z | okb p = true }.
Definition coef (x : dec) : Z := fst (proj1_sig x).
Definition scale (x : dec) : Z := snd (proj1_sig x).
Definition val (x : dec) : Q := coef x # Z.to_pos (10 ^ scale x).
Definition mk (c s : Z) : option dec := match bool_dec (okb (c, s)) true with left p => Some (exist _ (c, s) p) | right _ => None end.
Definition dzero : dec := exist _ (0, 0) eq_refl.
Definition mk0 (c s : Z) : dec := match mk c s with Some d => d | None => dzero end.
(** [n / d] rounded, ties away from zero *)
Definition round_div (n d : Z) : Z := Z.sgn n * ((2 * Z.abs n + d) / (2 * d)).
(** The greatest scale for which there is room. *)
Fixpoint fit_from (k : nat) (q : Q) : option dec :=
  let c := round_div (Qnum q * 10 ^ Z.of_nat k) (Zpos (Qden q)) in
  if Z.abs c <? limit then mk c (Z.of_nat k) else match k with 0%nat => None | S k' => fit_from k' q end.
Definition fit (q : Q) : option dec := fit_from 28 q.
Definition ten (x : dec) : Z := 10 ^ scale x.
Definition ref_lib : dlib dec := {|
  d_lit := fun c s => mk0 c (Z.of_N s);
  d_cadd := fun x y => fit (val x + val y); d_csub := fun x y => fit (val x - val y); d_cmul := fun x y => fit (val x * val y);
  d_cdiv := fun x y => if coef y =? 0 then None else fit (val x / val y);
  d_crem := fun x y => if coef y =? 0 then None else
    let s := Z.max (scale x) (scale y) in Some (mk0 (Z.rem (coef x * 10 ^ (s - scale x)) (coef y * 10 ^ (s - scale y))) s);
  d_neg := fun x => mk0 (- coef x) (scale x); d_abs := fun x => mk0 (Z.abs (coef x)) (scale x);
  d_round := fun x => mk0 (round_div (coef x) (ten x)) 0;
  d_floor := fun x => mk0 (coef x / ten x) 0; d_ceil := fun x => mk0 (- (- coef x / ten x)) 0;
  d_trunc := fun x => mk0 (Z.quot (coef x) (ten x)) 0; d_fract := fun x => mk0 (Z.rem (coef x) (ten x)) (scale x);
  d_round_dp := fun n x => if scale x <=? Z.of_N n then x else mk0 (round_div (coef x) (10 ^ (scale x - Z.of_N n))) (Z.of_N n);
  d_cmp := fun x y => (val x ?= val y)%Q; d_sign_negative := fun x => coef x <? 0;
  d_to_i64 := fun x => let z := Z.quot (coef x) (ten x) in if (- 2 ^ 63 <=? z) && (z <? 2 ^ 63) then Some z else None;
  d_to_f64 := fun x => Some (f_div (f_of_Z (coef x)) (f_of_Z (ten x)));
  d_from_f64 := fun f => match f with
    | S754_zero _ => Some dzero
    | S754_finite s m e => fit (inject_Z (if s then Zneg m else Zpos m) * (if 0 <=? e then inject_Z (2 ^ e) else 1 # Z.to_pos (2 ^ (- e))))
    | _ => None
    end |}.

(** ** Proofs *)
Lemma ten_pos : forall s, 0 <= s -> 0 < 10 ^ s. Proof. intros. apply Z.pow_pos_nonneg; lia. Qed.
Lemma dec_ok : forall x : dec, Z.abs (coef x) < limit /\ 0 <= scale x <= 28.
Proof. intros [[c s] H]. unfold coef, scale. simpl. unfold okb in H. cbn [fst snd] in H. lia. Qed.
Lemma val_eq : forall x, (val x * inject_Z (10 ^ scale x) == inject_Z (coef x))%Q.
Proof.
  intros x. destruct (dec_ok x) as [_ S]. pose proof (ten_pos (scale x) ltac:(lia)). unfold val, Qeq, inject_Z. simpl. rewrite Pos.mul_1_r, Z2Pos.id by lia. ring.
Qed.
Lemma val_iff : forall x q, (val x == q)%Q <-> (inject_Z (coef x) == q * inject_Z (10 ^ scale x))%Q.
Proof.
  intros x q. pose proof (val_eq x) as E. destruct (dec_ok x) as [_ S]. pose proof (ten_pos (scale x) ltac:(lia)) as T.
  assert (N : ~ (inject_Z (10 ^ scale x) == 0)%Q) by (unfold Qeq, inject_Z; simpl; lia). rewrite <- E. split; intros H; [rewrite H; reflexivity|].
  apply (Qmult_inj_r _ _ _ N). exact H.
Qed.
Lemma val_rep : forall x, representable (val x).
Proof. intros x. exists (coef x), (scale x). destruct (dec_ok x). split; [lia|]. split; [lia|]. apply val_eq. Qed.
Lemma mk_some : forall c s, Z.abs c < limit -> 0 <= s <= 28 -> exists x, mk c s = Some x /\ coef x = c /\ scale x = s.
Proof.
  intros c s Hc Hs. unfold mk. destruct (bool_dec (okb (c, s)) true) as [p|n]; [eexists; split; [reflexivity|]; split; reflexivity|].
  exfalso. apply n. unfold okb. cbn [fst snd]. lia.
Qed.
Lemma mk0_ok : forall c s, Z.abs c < limit -> 0 <= s <= 28 -> coef (mk0 c s) = c /\ scale (mk0 c s) = s.
Proof. intros c s Hc Hs. unfold mk0. destruct (mk_some c s Hc Hs) as (x & -> & A). exact A. Qed.

Lemma round_div_close : forall n d, 0 < d -> 2 * Z.abs (round_div n d * d - n) <= d.
Proof.
  intros n d Hd. unfold round_div. pose proof (Z.div_mod (2 * Z.abs n + d) (2 * d) ltac:(lia)). pose proof (Z.mod_pos_bound (2 * Z.abs n + d) (2 * d) ltac:(lia)).
  set (k := (2 * Z.abs n + d) / (2 * d)) in *. destruct (Z.sgn_spec n) as [[A ->]|[[A ->]|[A ->]]]; nia.
Qed.
Lemma round_div_exact : forall n d k, 0 < d -> n = k * d -> round_div n d = k.
Proof. intros n d k Hd ->. pose proof (round_div_close (k * d) d Hd). nia. Qed.
Lemma round_div_bound : forall n d l, 0 < d -> 0 <= l -> (Z.abs n <= l * d -> Z.abs (round_div n d) <= l) /\ (l * d <= Z.abs n -> l <= Z.abs (round_div n d)).
Proof. intros n d l Hd Hl. pose proof (round_div_close n d Hd). split; intros; nia. Qed.

Lemma limit_pos : 0 < limit. Proof. unfold limit. lia. Qed.
Ltac lim := pose proof limit_pos.
Opaque limit.

(** The condition in which a scale has room. *)
Definition room (q : Q) (s : Z) : Prop := Z.abs (round_div (Qnum q * 10 ^ s) (Zpos (Qden q))) < limit.
Lemma fit_from_some : forall k q, (k <= 28)%nat -> (exists j, (j <= k)%nat /\ room q (Z.of_nat j)) ->
  exists z s, fit_from k q = Some z /\ scale z = s /\ 0 <= s /\ coef z = round_div (Qnum q * 10 ^ s) (Zpos (Qden q)) /\ forall j, (j <= k)%nat -> room q (Z.of_nat j) -> Z.of_nat j <= s.
Proof.
  induction k as [|k IH]; intros q Hk (j & Hj & Rj); cbn [fit_from]; destruct (Z.abs _ <? limit) eqn:B.
  - apply Z.ltb_lt in B. destruct (mk_some _ (Z.of_nat 0) B ltac:(lia)) as (x & -> & C & S). exists x, 0. repeat split; auto; intros; lia.
  - assert (j = 0%nat) by lia. subst. unfold room in Rj. lia.
  - apply Z.ltb_lt in B. destruct (mk_some _ (Z.of_nat (S k)) B ltac:(lia)) as (x & -> & C & S). exists x, (Z.of_nat (Datatypes.S k)). repeat split; auto; intros; lia.
  - apply Z.ltb_ge in B. assert (j <> S k) by (intros ->; unfold room in Rj; lia). destruct (IH q ltac:(lia)) as (z & s & A1 & A2 & A3 & A4 & A5); [exists j; split; [lia|exact Rj]|].
    exists z, s. repeat split; auto. intros i Hi Ri. assert (i <> S k) by (intros ->; unfold room in Ri; lia). apply A5; [lia|exact Ri].
Qed.
Lemma fit_some : forall q s0, 0 <= s0 <= 28 -> room q s0 -> exists z, fit q = Some z /\ s0 <= scale z /\ coef z = round_div (Qnum q * 10 ^ scale z) (Zpos (Qden q)).
Proof.
  intros q s0 Hs R. assert (R' : room q (Z.of_nat (Z.to_nat s0))) by (rewrite Z2Nat.id by lia; exact R).
  destruct (fit_from_some 28 q ltac:(lia)) as (z & s & A1 & <- & A3 & A4 & A5); [exists (Z.to_nat s0); split; [lia|exact R']|].
  exists z. split; [exact A1|]. split; [|exact A4]. specialize (A5 (Z.to_nat s0) ltac:(lia) R'). lia.
Qed.
Lemma fit_none : forall q, (forall s, 0 <= s <= 28 -> ~ room q s) -> fit q = None.
Proof.
  intros q H. unfold fit. assert (G : forall k, (k <= 28)%nat -> fit_from k q = None).
  { induction k as [|k IH]; intros Hk; cbn [fit_from]; destruct (Z.abs _ <? limit) eqn:B; try (apply Z.ltb_lt in B; exfalso; eapply H; [|exact B]; lia); auto. apply IH. lia. }
  apply G. lia.
Qed.
Lemma frac_mul : forall q t, (q * inject_Z t == (Qnum q * t) # Qden q)%Q.
Proof. intros q t. unfold Qeq. simpl. rewrite Pos.mul_1_r. reflexivity. Qed.
Lemma frac_eq : forall n d k, (n # d == inject_Z k)%Q <-> n = k * Zpos d.
Proof. intros. unfold Qeq. simpl. lia. Qed.

Lemma fit_computes : forall q, computes val q (fit q).
Proof.
  intros q. lim. set (d := Zpos (Qden q)). assert (Hd : 0 < d) by (unfold d; lia).
  assert (T : forall s, 0 <= s -> 1 <= 10 ^ s) by (intros s Hs; pose proof (ten_pos s Hs); lia).
  assert (V : forall z, (val z == q)%Q <-> coef z * d = Qnum q * 10 ^ scale z).
  { intros z. rewrite val_iff, frac_mul. unfold Qeq. simpl. fold d. lia. }
  split; [|split].
  - intros (c & s & Hs & Hc & E). rewrite frac_mul in E. assert (E' : Qnum q * 10 ^ s = c * d) by (apply frac_eq; exact E). clear E. rename E' into E.
    assert (R : room q s). { unfold room. fold d. rewrite (round_div_exact _ d c Hd E). exact Hc. }
    destruct (fit_some q s Hs R) as (z & A & B & C). exists z. split; [exact A|]. apply V. fold d in C.
    assert (X : Qnum q * 10 ^ scale z = (c * 10 ^ (scale z - s)) * d). { replace (scale z) with (s + (scale z - s)) at 1 by lia. rewrite Z.pow_add_r by lia. rewrite Z.mul_assoc, E. ring. }
    rewrite C, (round_div_exact _ d _ Hd X). lia.
  - intros Hq. apply fit_none. intros s Hs R. unfold room in R. fold d in R.
    assert (A : limit * d <= Z.abs (Qnum q)). { unfold Qle, Qabs, inject_Z in Hq. destruct q as [n dd]. simpl in *. fold d in Hq. lia. }
    pose proof (proj2 (round_div_bound (Qnum q * 10 ^ s) d limit Hd ltac:(lia))) as B. rewrite Z.abs_mul, (Z.abs_eq (10 ^ s)) in B by (pose proof (T s); lia).
    pose proof (T s ltac:(lia)). nia.
  - intros Hq. assert (A : Z.abs (Qnum q) <= (limit - 1) * d). { unfold Qle, Qabs, inject_Z in Hq. destruct q as [n dd]. simpl in *. fold d in Hq. lia. }
    assert (R : room q 0). { unfold room. fold d. change (10 ^ 0) with 1. rewrite Z.mul_1_r. pose proof (proj1 (round_div_bound (Qnum q) d (limit - 1) Hd ltac:(lia)) A). lia. }
    destruct (fit_some q 0 ltac:(lia) R) as (z & F & _ & C). exists z. split; [exact F|]. intros s Hs Hr.
    assert (Rs : room q s). { unfold room. fold d.
      assert (X : Z.abs (Qnum q) * 10 ^ s <= 2 ^ 95 * d). { clear - Hr. unfold Qlt, Qabs, inject_Z in Hr. destruct q as [n dd]. simpl in *. subst d. rewrite Pos.mul_1_r in Hr. change (Z.pow_pos 2 95) with (2 ^ 95) in *. lia. }
      pose proof (proj1 (round_div_bound (Qnum q * 10 ^ s) d (2 ^ 95) Hd ltac:(lia))) as B. rewrite Z.abs_mul, (Z.abs_eq (10 ^ s)) in B by (pose proof (T s); lia). specialize (B X).
      assert (2 ^ 95 < limit) by reflexivity. lia. }
    destruct (fit_some q s Hs Rs) as (z' & F' & S' & _). rewrite F' in F. injection F as ->. fold d in C.
    pose proof (round_div_close (Qnum q * 10 ^ scale z) d Hd) as K. rewrite <- C in K.
    destruct (dec_ok z) as [_ Sz].
    assert (X : (Qabs (val z - q) * inject_Z (10 ^ scale z) <= 1)%Q).
    { assert (P : (0 <= inject_Z (10 ^ scale z))%Q) by (unfold Qle; simpl; pose proof (T (scale z)); lia).
      rewrite <- (Qabs_pos _ P) at 1. rewrite <- Qabs_Qmult. setoid_replace ((val z - q) * inject_Z (10 ^ scale z))%Q with ((coef z * d - Qnum q * 10 ^ scale z) # Qden q)%Q.
      - unfold Qle, Qabs. simpl. fold d. lia.
      - setoid_replace ((val z - q) * inject_Z (10 ^ scale z))%Q with (val z * inject_Z (10 ^ scale z) - q * inject_Z (10 ^ scale z))%Q by ring.
        rewrite val_eq, frac_mul. unfold Qeq, Qminus, Qplus. simpl. fold d. rewrite Z.mul_1_r. ring. }
    eapply Qle_trans; [|exact X]. rewrite !(Qmult_comm (Qabs _)). apply Qmult_le_compat_r; [|apply Qabs_nonneg]. rewrite <- Zle_Qle. apply Z.pow_le_mono_r; lia.
Qed.

Lemma val_zero : forall x, (val x == 0)%Q <-> coef x = 0.
Proof. intros x. unfold val, Qeq. simpl. lia. Qed.
Lemma val_int : forall x k, (val x == inject_Z k)%Q <-> coef x = k * 10 ^ scale x.
Proof.
  intros x k. destruct (dec_ok x) as [_ S]. pose proof (ten_pos (scale x) ltac:(lia)). unfold val, Qeq. simpl. rewrite Z2Pos.id by lia. lia.
Qed.
Lemma floor_val : forall x, Qfloor (val x) = coef x / 10 ^ scale x.
Proof. intros x. destruct (dec_ok x) as [_ S]. pose proof (ten_pos (scale x) ltac:(lia)). unfold val, Qfloor. rewrite Z2Pos.id by lia. reflexivity. Qed.
Lemma ceil_val : forall x, Qceiling (val x) = - (- coef x / 10 ^ scale x).
Proof. intros x. destruct (dec_ok x) as [_ S]. pose proof (ten_pos (scale x) ltac:(lia)). unfold val, Qceiling, Qfloor. simpl. rewrite Z2Pos.id by lia. reflexivity. Qed.
Lemma trunc_frac : forall n d, truncated (n # d) = Z.quot n (Zpos d).
Proof.
  intros n d. unfold truncated. destruct (Qle_bool 0 (n # d)) eqn:B; unfold Qle_bool in B; simpl in B; [apply Z.leb_le in B|apply Z.leb_gt in B].
  - unfold Qfloor. rewrite Z.quot_div_nonneg by lia. reflexivity.
  - unfold Qceiling, Qfloor. simpl. rewrite Z.quot_div by lia. destruct n; try lia. cbn [Z.sgn Z.abs Z.opp]. lia.
Qed.
Lemma trunc_val : forall x, truncated (val x) = Z.quot (coef x) (10 ^ scale x).
Proof. intros x. destruct (dec_ok x) as [_ S]. pose proof (ten_pos (scale x) ltac:(lia)). unfold val. rewrite trunc_frac, Z2Pos.id by lia. reflexivity. Qed.
Lemma quot_bound : forall a b, 0 < b -> Z.abs (Z.quot a b) <= Z.abs a.
Proof. intros a b Hb. rewrite <- Z.quot_abs by lia. rewrite (Z.abs_eq b) by lia. apply Z.quot_le_upper_bound; nia. Qed.

Theorem ref_exact : exact_decimals ref_lib val.
Proof.
  lim. constructor; cbn [ref_lib d_lit d_cmp d_cadd d_csub d_cmul d_cdiv d_crem d_neg d_abs d_round d_floor d_ceil d_trunc d_fract d_round_dp d_sign_negative d_to_i64].
  - apply val_rep.
  - intros c s Hc Hs. destruct (mk0_ok c (Z.of_N s) Hc ltac:(lia)) as [A B]. pose proof (val_eq (mk0 c (Z.of_N s))) as X. rewrite A, B in X. exact X.
  - reflexivity.
  - intros. apply fit_computes.
  - intros. apply fit_computes.
  - intros. apply fit_computes.
  - intros x y Hy. rewrite val_zero in Hy. destruct (coef y =? 0) eqn:B; [lia|]. apply fit_computes.
  - intros x y Hy. rewrite val_zero in Hy. rewrite Hy. reflexivity.
  - intros x y Hy. rewrite val_zero in Hy. destruct (coef y =? 0) eqn:B; [lia|]. eexists. split; [reflexivity|].
    destruct (dec_ok x) as [Cx Sx], (dec_ok y) as [Cy Sy]. pose proof (ten_pos (scale x) ltac:(lia)). pose proof (ten_pos (scale y) ltac:(lia)).
    set (s := Z.max (scale x) (scale y)). set (a := coef x * 10 ^ (s - scale x)). set (b := coef y * 10 ^ (s - scale y)).
    pose proof (ten_pos (s - scale x) ltac:(lia)) as Px. pose proof (ten_pos (s - scale y) ltac:(lia)) as Py. pose proof (ten_pos s ltac:(lia)) as Ps.
    assert (Hb : b <> 0) by (unfold b; nia).
    assert (R : Z.abs (Z.rem a b) < limit).
    { pose proof (Z.rem_bound_abs a b Hb). assert (Z.abs (Z.rem a b) <= Z.abs a). { rewrite <- Z.rem_abs by exact Hb. apply Z.rem_le; lia. }
      destruct (Z.max_spec (scale x) (scale y)) as [[M1 M2]|[M1 M2]]; fold s in M2.
      - assert (b = coef y) by (unfold b; rewrite M2, Z.sub_diag; change (10 ^ 0) with 1; lia). lia.
      - assert (a = coef x) by (unfold a; rewrite M2, Z.sub_diag; change (10 ^ 0) with 1; lia). lia. }
    destruct (mk0_ok (Z.rem a b) s R ltac:(lia)) as [E1 E2].
    assert (Vx : (val x * inject_Z (10 ^ s) == inject_Z a)%Q).
    { unfold a. rewrite inject_Z_mult, <- val_eq. replace s with (scale x + (s - scale x)) at 1 by lia. rewrite Z.pow_add_r, inject_Z_mult by lia. ring. }
    assert (Vy : (val y * inject_Z (10 ^ s) == inject_Z b)%Q).
    { unfold b. rewrite inject_Z_mult, <- val_eq. replace s with (scale y + (s - scale y)) at 1 by lia. rewrite Z.pow_add_r, inject_Z_mult by lia. ring. }
    assert (N : ~ (inject_Z (10 ^ s) == 0)%Q) by (unfold Qeq, inject_Z; simpl; lia).
    assert (Tq : truncated (val x / val y) = Z.quot a b).
    { assert (Q1 : (val x / val y == inject_Z a / inject_Z b)%Q). { rewrite <- Vx, <- Vy. field. split; [exact N|]. rewrite val_zero. exact Hy. }
      assert (TM : forall p q, (p == q)%Q -> truncated p = truncated q).
      { intros p q E. unfold truncated. rewrite (Qfloor_comp _ _ E), (Qceiling_comp _ _ E). assert (Qle_bool 0 p = Qle_bool 0 q) as ->; [|reflexivity].
        apply eq_true_iff_eq. rewrite !Qle_bool_iff, E. reflexivity. }
      rewrite (TM _ _ Q1). clear - Hb TM. clearbody a b. destruct b as [|b|b]; [lia| |].
      - rewrite (TM _ (a # b)); [apply trunc_frac|]. unfold Qdiv, Qinv, inject_Z, Qeq. simpl. lia.
      - rewrite (TM _ (- a # b)); [|unfold Qdiv, Qinv, inject_Z, Qeq; simpl; lia]. rewrite trunc_frac. change (Zneg b) with (- Zpos b). rewrite Z.quot_opp_l, Z.quot_opp_r by lia. reflexivity. }
    apply (Qmult_inj_r _ _ _ N). pose proof (val_eq (mk0 (Z.rem a b) s)) as X. rewrite E1, E2 in X. rewrite X, Tq. clear X.
    setoid_replace ((val x - val y * inject_Z (a ÷ b)) * inject_Z (10 ^ s))%Q with (val x * inject_Z (10 ^ s) - (val y * inject_Z (10 ^ s)) * inject_Z (a ÷ b))%Q by ring.
    rewrite Vx, Vy, <- inject_Z_mult. unfold Qminus. rewrite <- inject_Z_opp, <- inject_Z_plus. rewrite (Z.quot_rem' a b) at 2. replace (b * (a ÷ b) + Z.rem a b + - (b * (a ÷ b))) with (Z.rem a b) by ring. reflexivity.
  - intros x y Hy. rewrite val_zero in Hy. rewrite Hy. reflexivity.
  - intros x. destruct (dec_ok x) as [Cx Sx]. destruct (mk0_ok (- coef x) (scale x) ltac:(lia) Sx) as [E1 E2]. apply val_iff. rewrite E1, E2, inject_Z_opp, <- val_eq. ring.
  - intros x. destruct (dec_ok x) as [Cx Sx]. destruct (mk0_ok (Z.abs (coef x)) (scale x) ltac:(lia) Sx) as [E1 E2]. unfold val. rewrite E1, E2. reflexivity.
  - intros x. destruct (dec_ok x) as [Cx Sx]. pose proof (ten_pos (scale x) ltac:(lia)) as T. exists (round_div (coef x) (ten x)).
    assert (R : Z.abs (round_div (coef x) (ten x)) < limit). { pose proof (proj1 (round_div_bound (coef x) (ten x) (limit - 1) T ltac:(lia))) as B. unfold ten in *. assert (Z.abs (coef x) <= (limit - 1) * 10 ^ scale x) by nia. lia. }
    destruct (mk0_ok _ 0 R ltac:(lia)) as [E1 E2]. split; [apply val_int; rewrite E1, E2; change (10 ^ 0) with 1; lia|].
    pose proof (round_div_close (coef x) (ten x) T) as K. unfold val, Qle, Qabs, Qminus, Qplus, Qopp, inject_Z, ten in *. simpl. rewrite Pos.mul_1_r, Z2Pos.id by lia. lia.
  - intros x. destruct (dec_ok x) as [Cx Sx]. pose proof (ten_pos (scale x) ltac:(lia)) as T. rewrite floor_val.
    assert (R : Z.abs (coef x / ten x) < limit). { unfold ten. pose proof (Z.div_mod (coef x) (10 ^ scale x) ltac:(lia)). pose proof (Z.mod_pos_bound (coef x) (10 ^ scale x) T). nia. }
    destruct (mk0_ok _ 0 R ltac:(lia)) as [E1 E2]. apply val_int. rewrite E1, E2. change (10 ^ 0) with 1. unfold ten. lia.
  - intros x. destruct (dec_ok x) as [Cx Sx]. pose proof (ten_pos (scale x) ltac:(lia)) as T. rewrite ceil_val.
    assert (R : Z.abs (- (- coef x / ten x)) < limit). { unfold ten. pose proof (Z.div_mod (- coef x) (10 ^ scale x) ltac:(lia)). pose proof (Z.mod_pos_bound (- coef x) (10 ^ scale x) T). nia. }
    destruct (mk0_ok _ 0 R ltac:(lia)) as [E1 E2]. apply val_int. rewrite E1, E2. change (10 ^ 0) with 1. unfold ten. lia.
  - intros x. destruct (dec_ok x) as [Cx Sx]. pose proof (ten_pos (scale x) ltac:(lia)) as T. rewrite trunc_val.
    assert (R : Z.abs (Z.quot (coef x) (ten x)) < limit). { pose proof (quot_bound (coef x) (ten x) T). lia. }
    destruct (mk0_ok _ 0 R ltac:(lia)) as [E1 E2]. apply val_int. rewrite E1, E2. change (10 ^ 0) with 1. unfold ten. lia.
  - intros x. destruct (dec_ok x) as [Cx Sx]. pose proof (ten_pos (scale x) ltac:(lia)) as T. rewrite trunc_val.
    assert (R : Z.abs (Z.rem (coef x) (ten x)) < limit). { assert (Z.abs (Z.rem (coef x) (ten x)) <= Z.abs (coef x)); [|lia]. rewrite <- Z.rem_abs by (unfold ten; lia). apply Z.rem_le; unfold ten; lia. }
    destruct (mk0_ok _ (scale x) R Sx) as [E1 E2]. apply val_iff. rewrite E1, E2.
    setoid_replace ((val x - inject_Z (coef x ÷ 10 ^ scale x)) * inject_Z (10 ^ scale x))%Q with (val x * inject_Z (10 ^ scale x) - inject_Z (coef x ÷ 10 ^ scale x) * inject_Z (10 ^ scale x))%Q by ring.
    rewrite val_eq, <- inject_Z_mult. unfold Qminus. rewrite <- inject_Z_opp, <- inject_Z_plus. unfold ten. rewrite (Z.quot_rem' (coef x) (10 ^ scale x)) at 2.
    replace (10 ^ scale x * (coef x ÷ 10 ^ scale x) + Z.rem (coef x) (10 ^ scale x) + - (coef x ÷ 10 ^ scale x * 10 ^ scale x)) with (Z.rem (coef x) (10 ^ scale x)) by ring. reflexivity.
  - intros n x k E. destruct (scale x <=? Z.of_N n) eqn:B; [reflexivity|]. apply Z.leb_gt in B. destruct (dec_ok x) as [Cx Sx].
    pose proof (ten_pos (scale x - Z.of_N n) ltac:(lia)) as T. pose proof (ten_pos (Z.of_N n) ltac:(lia)) as Tn.
    assert (K : coef x = k * 10 ^ (scale x - Z.of_N n)).
    { assert (Q1 : (inject_Z (coef x) == inject_Z (k * 10 ^ (scale x - Z.of_N n)))%Q).
      { rewrite <- val_eq, inject_Z_mult, <- E. replace (scale x) with (Z.of_N n + (scale x - Z.of_N n)) at 1 by lia. rewrite Z.pow_add_r, inject_Z_mult by lia. ring. }
      rewrite inject_Z_injective in Q1. exact Q1. }
    rewrite (round_div_exact _ _ k T K). destruct (mk0_ok k (Z.of_N n) ltac:(nia) ltac:(lia)) as [E1 E2]. apply val_iff. rewrite E1, E2, E. reflexivity.
  - intros x Hx. unfold val, Qlt in Hx. simpl in Hx. lia.
  - intros x Hx. unfold val, Qlt in Hx. simpl in Hx. lia.
  - intros s. unfold mk0, mk. destruct (bool_dec _ _); reflexivity.
  - intros x z E. rewrite val_int in E. destruct (dec_ok x) as [Cx Sx]. pose proof (ten_pos (scale x) ltac:(lia)) as T. unfold ten. rewrite E, Z.quot_mul by lia. reflexivity.
Qed.
Transparent limit.
