(** * Built-in operators over machine integers *)
From Coq Require Import List NArith ZArith Bool Arith Lia String.
From Verif Require Import ModelBase ModelContext ModelEvaluator ModelText ModelDefault ModelFloat ModelNum ModelOps SpecText SpecExpr SpecOps
  ProofText ProofDefault ProofBuild ProofCtx ProofRpn.
Import ListNotations.
Local Open Scope Z_scope.

Lemma fits_range : forall t z, in_range t z = true <-> fits t z.
Proof.
  intros t z. unfold in_range, fits, imin, imax. rewrite andb_true_iff, !Z.leb_le. destruct (signed t); lia.
Qed.
Lemma fits_dec : forall t z, {fits t z} + {~ fits t z}.
Proof. intros t z. destruct (in_range t z) eqn:H; [left|right]; rewrite <- fits_range; congruence. Defined.
Lemma not_fits_range : forall t z, in_range t z = false <-> ~ fits t z.
Proof. intros t z. rewrite <- fits_range. destruct (in_range t z); split; intros; congruence. Qed.

Lemma checked_exact : forall t z, exact_or_overflow t z (or_overflow (checked t z)).
Proof.
  intros t z. unfold exact_or_overflow, checked. destruct (in_range t z) eqn:H; simpl; [left|right]; split; auto.
  - apply fits_range. exact H.
  - apply not_fits_range. exact H.
Qed.
Lemma quot_spec : forall x y, y <> 0 -> is_quotient x y (Z.quot x y) (Z.rem x y).
Proof.
  intros x y Hy. unfold is_quotient. split; [apply Z.quot_rem'|]. split; [apply Z.rem_bound_abs; exact Hy|].
  split; intros Hx.
  - apply Z.rem_nonneg; assumption.
  - apply Z.rem_nonpos; assumption.
Qed.

Lemma size_pos : forall t, 0 < bits t -> imax t - imin t + 1 = 2 ^ bits t.
Proof.
  intros t H. unfold imin, imax. destruct (signed t); [|lia]. replace (2 ^ bits t) with (2 * 2 ^ (bits t - 1)); [lia|].
  rewrite <- Z.pow_succ_r by lia. f_equal. lia.
Qed.
Lemma wrap_spec : forall t z, 0 < bits t -> fits t (wrap t z) /\ exists k, wrap t z = z + k * 2 ^ bits t.
Proof.
  intros t z H. assert (P : 0 < 2 ^ bits t) by (apply Z.pow_pos_nonneg; lia). pose proof (size_pos t H). split.
  - apply fits_range. unfold in_range, wrap. pose proof (Z.mod_pos_bound (z - imin t) _ P). apply andb_true_iff. rewrite !Z.leb_le. lia.
  - exists (- ((z - imin t) / 2 ^ bits t)). unfold wrap. pose proof (Z.div_mod (z - imin t) (2 ^ bits t)). lia.
Qed.
Lemma wrap_unique : forall t z v, 0 < bits t -> fits t v -> (exists k, v = z + k * 2 ^ bits t) -> v = wrap t z.
Proof.
  intros t z v H Hf [k Hk]. apply fits_range in Hf. unfold in_range in Hf. rewrite andb_true_iff, !Z.leb_le in Hf. pose proof (size_pos t H).
  unfold wrap. replace (z - imin t) with ((v - imin t) + (- k) * 2 ^ bits t) by lia. rewrite Z.mod_add by (apply Z.pow_nonzero; lia).
  rewrite Z.mod_small by lia. lia.
Qed.
Lemma wrap_id : forall t z, 0 < bits t -> fits t z -> wrap t z = z.
Proof. intros t z H Hf. symmetry. apply wrap_unique; auto. exists 0. lia. Qed.
Lemma wrap_cong : forall t a b, 0 < bits t -> (exists k, a = b + k * 2 ^ bits t) -> wrap t a = wrap t b.
Proof.
  intros t a b H [k Hk]. apply wrap_unique; [exact H|apply wrap_spec; exact H|]. destruct (wrap_spec t a H) as [_ [j Hj]].
  exists (j + k). rewrite Hj, Hk. ring.
Qed.
Lemma wrap_add : forall t a b, 0 < bits t -> wrap t (wrap t a + wrap t b) = wrap t (a + b).
Proof.
  intros t a b H. apply wrap_cong; [exact H|]. destruct (wrap_spec t a H) as [_ [i Hi]]. destruct (wrap_spec t b H) as [_ [j Hj]].
  exists (i + j). rewrite Hi, Hj. ring.
Qed.
Lemma wrap_sub : forall t a b, 0 < bits t -> wrap t (wrap t a - wrap t b) = wrap t (a - b).
Proof.
  intros t a b H. apply wrap_cong; [exact H|]. destruct (wrap_spec t a H) as [_ [i Hi]]. destruct (wrap_spec t b H) as [_ [j Hj]].
  exists (i - j). rewrite Hi, Hj. ring.
Qed.
Lemma wrap_mul : forall t a b, 0 < bits t -> wrap t (wrap t a * wrap t b) = wrap t (a * b).
Proof.
  intros t a b H. apply wrap_cong; [exact H|]. destruct (wrap_spec t a H) as [_ [i Hi]]. destruct (wrap_spec t b H) as [_ [j Hj]].
  exists (a * j + b * i + i * j * 2 ^ bits t). rewrite Hi, Hj. ring.
Qed.
Lemma wrap_opp : forall t a, 0 < bits t -> wrap t (- wrap t a) = wrap t (- a).
Proof.
  intros t a H. apply wrap_cong; [exact H|]. destruct (wrap_spec t a H) as [_ [i Hi]]. exists (- i). rewrite Hi. ring.
Qed.

Lemma raw_release : forall t z, 0 < bits t -> raw t false z = Ok (wrap t z).
Proof. intros t z H. unfold raw. destruct (in_range t z) eqn:Hr; [|reflexivity]. apply fits_range in Hr. rewrite wrap_id; auto. Qed.
Lemma raw_debug : forall t z, (fits t z /\ raw t true z = Ok z) \/ (~ fits t z /\ raw t true z = Panic).
Proof. intros t z. unfold raw. destruct (in_range t z) eqn:H; [left; apply fits_range in H|right; apply not_fits_range in H]; auto. Qed.

(** ** Operators of the checked context *)
Section Checked.
Context {W : Type}.
Variable t : ity.
Variable dbg : bool.
Variable L : libm.
Variable random : W -> f64 * W.
Variable docs : bool.
Variable E : env.
Variable cf : config.
Notation n := (int_num t dbg).
Variable d : dctx Z W.
Hypothesis Hd : checked_context n L random docs E dbg cf = Ok d.
Notation c := (to_ctx E d).

Ltac bin i := unfold apply_binary; match goal with |- context [get_binary _ ?q] =>
  rewrite (checked_bin n L random docs E dbg cf d i _ q Hd eq_refl (alike_refl q)) end.
Ltac un i := unfold apply_unary; match goal with |- context [get_unary _ ?q] =>
  rewrite (checked_un n L random docs E dbg cf d i _ q Hd eq_refl (alike_refl q)) end.
Ltac fn i := unfold apply_function; match goal with |- context [get_function _ ?q] =>
  rewrite (checked_fun n L random docs E dbg cf d i _ q Hd eq_refl (alike_refl q)) end.

Lemma c_plus_is : forall x y w, apply_binary c (lit "+") x y w = (or_overflow (checked t (x + y)), w).
Proof. intros. bin 0%nat. reflexivity. Qed.
Lemma c_minus_is : forall x y w, apply_binary c (lit "-") x y w = (or_overflow (checked t (x - y)), w).
Proof. intros. bin 1%nat. reflexivity. Qed.
Lemma c_times_is : forall x y w, apply_binary c (lit "*") x y w = (or_overflow (checked t (x * y)), w).
Proof. intros. bin 2%nat. reflexivity. Qed.
Lemma c_div_is : forall x y w, apply_binary c (lit "/") x y w =
  (if y =? 0 then Err DivisionByZero else or_overflow (checked t (Z.quot x y)), w).
Proof.
  intros. bin 3%nat. cbn. unfold lift, checked_div. destruct (y =? 0) eqn:Hy; reflexivity.
Qed.
Lemma c_mod_is : forall x y w, apply_binary c (lit "mod") x y w =
  (if y =? 0 then Err DivisionByZero else if in_range t (Z.quot x y) then Ok (Z.rem x y) else Err Overflow, w).
Proof.
  intros. bin 5%nat. cbn. unfold lift, checked_rem. destruct (y =? 0) eqn:Hy; [reflexivity|]. destruct (in_range t (Z.quot x y)); reflexivity.
Qed.
Lemma c_pow_is : forall x y w, apply_binary c (lit "^") x y w =
  (or_overflow (match f_trunc_Z (powf L (f_of_Z x) (f_of_Z y)) with Some z => checked t z | None => None end), w).
Proof. intros. bin 4%nat. reflexivity. Qed.
Lemma c_uplus_is : forall x w, apply_unary c (lit "+") x w = (Ok x, w).
Proof. intros. un 0%nat. reflexivity. Qed.
Lemma c_uminus_is : forall x w, apply_unary c (lit "-") x w = (or_overflow (checked t (- x)), w).
Proof. intros. un 1%nat. reflexivity. Qed.
Lemma c_fact_is : forall x w, apply_unary c (lit "!") x w = uf_call (op_factorial n L) x w.
Proof. intros. un 2%nat. reflexivity. Qed.
Lemma c_sum_is : forall zs w, apply_function c (lit "sum") zs w = fn_call (c_sum n) zs w.
Proof. intros. fn 0%nat. reflexivity. Qed.
Lemma c_prod_is : forall zs w, apply_function c (lit "product") zs w = fn_call (c_prod n) zs w.
Proof. intros. fn 1%nat. reflexivity. Qed.
Lemma c_avg_is : forall zs w, apply_function c (lit "avg") zs w = fn_call (c_avg n) zs w.
Proof. intros. fn 2%nat. reflexivity. Qed.
Lemma c_max_is : forall zs w, apply_function c (lit "max") zs w = fn_call (op_max n) zs w.
Proof. intros. fn 3%nat. reflexivity. Qed.
Lemma c_min_is : forall zs w, apply_function c (lit "min") zs w = fn_call (op_min n) zs w.
Proof. intros. fn 4%nat. reflexivity. Qed.
Lemma c_abs_is : forall zs w, apply_function c (lit "abs") zs w = fn_call (c_abs n) zs w.
Proof. intros. fn 5%nat. reflexivity. Qed.

Lemma checked_cases : forall z, (fits t z /\ or_overflow (checked t z) = Ok z) \/ (~ fits t z /\ or_overflow (checked t z) = Err Overflow).
Proof. exact (checked_exact t). Qed.

(** ** Expressions *)
Definition good (r : res Z) (e : expr Z) : Prop :=
  match r with
  | Ok v => ideal e = Some v /\ all_fit t e
  | Err k => (k = Overflow \/ k = DivisionByZero) /\ ~ all_fit t e
  | Panic => False
  end.

Lemma all_fit_value : forall e, all_fit t e -> value_fits t (ideal e).
Proof. intros e H. destruct e; apply H. Qed.

Lemma ideal_bin : forall o l r x y, ideal l = Some x -> ideal r = Some y -> ideal (EBin o l r) = ideal_op o x y.
Proof. intros o l r x y Hl Hr. simpl. rewrite Hl, Hr. reflexivity. Qed.

Lemma denote_good : forall e w, arithmetic e -> literals_fit t e -> exists r, denote c e w = (r, w) /\ good r e.
Proof.
  induction e as [v|x|x|g e IH|f g args IH|u e IH|e u IH|o l r IHl IHr|l r IHl IHr] using expr_ind'; intros w Ha Hl; try destruct Ha.
  - exists (Ok v). split; [reflexivity|]. simpl. split; [reflexivity|]. split; [|exact I]. exists v. auto.
  - simpl in Ha, Hl. destruct (IH w Ha Hl) as (r & Hr & Hg). exists r. split; [exact Hr|]. destruct r as [v|k|]; simpl in *.
    + destruct Hg as [Hi Hf]. split; [exact Hi|]. split; [apply all_fit_value; exact Hf|exact Hf].
    + destruct Hg as [Hk Hf]. split; [exact Hk|]. tauto.
    + exact Hg.
  - simpl in Hl. destruct (IH w H0 Hl) as (r & Hr & Hg). cbn [denote]. unfold bind. rewrite Hr. destruct r as [v|k|]; simpl in Hg.
    + destruct Hg as [Hi Hf]. destruct H as [<-|[<-|[]]].
      * exists (Ok v). split; [apply c_uplus_is|]. simpl. rewrite Hi. simpl. split; [reflexivity|]. split; [|exact Hf].
        apply all_fit_value in Hf. rewrite Hi in Hf. exact Hf.
      * rewrite c_uminus_is. eexists. split; [reflexivity|]. destruct (checked_cases (- v)) as [[F ->]|[F ->]]; cbn [good all_fit ideal]; rewrite Hi; cbn.
        -- split; [reflexivity|]. split; [exists (- v); auto|exact Hf].
        -- split; [auto|]. intros [(z & Hz & Fz) _]. injection Hz as <-. contradiction.
    + exists (Err k). split; [reflexivity|]. simpl. destruct Hg. split; [assumption|]. intros [_ A]. contradiction.
    + destruct Hg.
  - destruct H0 as [Hal Har]. simpl in Hl. destruct Hl as [Hll Hlr]. destruct (IHl w Hal Hll) as (rl & Hrl & Hgl). destruct (IHr w Har Hlr) as (rr & Hrr & Hgr).
    cbn [denote]. unfold bind. rewrite Hrl. destruct rl as [x|k|]; simpl in Hgl; [| |destruct Hgl].
    2: { exists (Err k). split; [reflexivity|]. simpl. destruct Hgl. split; [assumption|]. intros (_ & A & _). contradiction. }
    rewrite Hrr. destruct rr as [y|k|]; simpl in Hgr; [| |destruct Hgr].
    2: { exists (Err k). split; [reflexivity|]. simpl. destruct Hgr. split; [assumption|]. intros (_ & _ & A & _). contradiction. }
    destruct Hgl as [Hil Hfl]. destruct Hgr as [Hir Hfr].
    assert (G : forall z, ideal_op o x y = Some z -> (o = lit "mod" -> fits t (Z.quot x y)) -> good (or_overflow (checked t z)) (EBin o l r)).
    { intros z Hz Hm. pose proof (ideal_bin o l r x y Hil Hir) as Hi. destruct (checked_cases z) as [[F ->]|[F ->]]; cbn [good all_fit]; rewrite Hi, Hz.
      - split; [reflexivity|]. split; [exists z; auto|]. split; [exact Hfl|]. split; [exact Hfr|]. intros Ho. exists x, y. auto.
      - split; [auto|]. intros [(z' & Hz' & Fz) _]. injection Hz' as <-. contradiction. }
    destruct H as [<-|[<-|[<-|[<-|[<-|[]]]]]].
    + rewrite c_plus_is. eexists. split; [reflexivity|]. apply G; [reflexivity|discriminate].
    + rewrite c_minus_is. eexists. split; [reflexivity|]. apply G; [reflexivity|discriminate].
    + rewrite c_times_is. eexists. split; [reflexivity|]. apply G; [reflexivity|discriminate].
    + rewrite c_div_is. eexists. split; [reflexivity|]. destruct (y =? 0) eqn:Hy.
      * cbn [good all_fit]. split; [auto|]. intros [(z & Hz & _) _]. rewrite (ideal_bin _ _ _ _ _ Hil Hir) in Hz. unfold ideal_op in Hz.
        simpl in Hz. rewrite Hy in Hz. discriminate.
      * apply G; [|discriminate]. unfold ideal_op. simpl. rewrite Hy. reflexivity.
    + rewrite c_mod_is. eexists. split; [reflexivity|]. destruct (y =? 0) eqn:Hy.
      * cbn [good all_fit]. split; [auto|]. intros [(z & Hz & _) _]. rewrite (ideal_bin _ _ _ _ _ Hil Hir) in Hz. unfold ideal_op in Hz.
        simpl in Hz. rewrite Hy in Hz. discriminate.
      * destruct (in_range t (Z.quot x y)) eqn:Hq.
        -- assert (Hrem : fits t (Z.rem x y)).
           { apply fits_range in Hq. apply all_fit_value in Hfl. destruct Hfl as (x' & Hx & Fx). rewrite Hil in Hx. injection Hx as <-.
             apply Z.eqb_neq in Hy. pose proof (Z.rem_bound_abs x y Hy). pose proof (Z.quot_rem' x y).
             assert (Hs : 0 <= Z.rem x y <= x \/ x <= Z.rem x y <= 0).
             { destruct (Z.le_ge_cases 0 x); [left|right].
               - pose proof (Z.rem_nonneg x y Hy H1). pose proof (Z.rem_le x (Z.abs y) H1). rewrite Z.rem_abs_r in H3 by exact Hy. lia.
               - pose proof (Z.rem_nonpos x y Hy H1). pose proof (Z.rem_le (- x) (Z.abs y)). rewrite Z.rem_abs_r, Z.rem_opp_l in H3 by exact Hy. lia. }
             unfold fits in *. destruct (signed t); lia. }
           assert (Hi : ideal_op (lit "mod") x y = Some (Z.rem x y)) by (unfold ideal_op; simpl; rewrite Hy; reflexivity).
           pose proof (G _ Hi (fun _ => proj1 (fits_range t _) Hq)) as G'.
           destruct (checked_cases (Z.rem x y)) as [[F Hc]|[F _]]; [|contradiction]. rewrite Hc in G'. exact G'.
        -- cbn [good all_fit]. split; [auto|]. intros (_ & _ & _ & Hm). destruct (Hm eq_refl) as (x' & y' & Hx & Hy' & F).
           rewrite Hil in Hx. rewrite Hir in Hy'. injection Hx as <-. injection Hy' as <-. apply fits_range in F. congruence.
  - rename H into Hal, H0 into Har. simpl in Hl. destruct Hl as [Hll Hlr]. destruct (IHl w Hal Hll) as (rl & Hrl & Hgl). destruct (IHr w Har Hlr) as (rr & Hrr & Hgr).
    cbn [denote]. unfold bind. rewrite Hrl. destruct rl as [x|k|]; simpl in Hgl; [| |destruct Hgl].
    2: { exists (Err k). split; [reflexivity|]. simpl. destruct Hgl. split; [assumption|]. intros (_ & A & _). contradiction. }
    rewrite Hrr. destruct rr as [y|k|]; simpl in Hgr; [| |destruct Hgr].
    2: { exists (Err k). split; [reflexivity|]. simpl. destruct Hgr. split; [assumption|]. intros (_ & _ & A). contradiction. }
    destruct Hgl as [Hil Hfl]. destruct Hgr as [Hir Hfr]. change times with (lit "*"). rewrite c_times_is. eexists. split; [reflexivity|].
    destruct (checked_cases (x * y)) as [[F ->]|[F ->]]; cbn [good all_fit ideal]; rewrite Hil, Hir.
    + split; [reflexivity|]. split; [exists (x * y); auto|auto].
    + split; [auto|]. intros [(z' & Hz' & Fz) _]. injection Hz' as <-. contradiction.
Qed.
End Checked.
