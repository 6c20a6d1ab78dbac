(** * Unchecked operators, aggregates and factorial over machine integers *)
From Coq Require Import List NArith ZArith Bool Arith Lia String.
From Verif Require Import ModelBase ModelContext ModelEvaluator ModelText ModelDefault ModelFloat ModelNum ModelOps SpecText SpecExpr SpecOps
  ProofText ProofDefault ProofBuild ProofCtx ProofRpn ProofOps.
Import ListNotations.
Local Open Scope Z_scope.

Section Unchecked.
Context {W : Type}.
Variable t : ity.
Variable dbg : bool.
Variable L : libm.
Variable random : W -> f64 * W.
Variable E : env.
Variable cf : config.
Notation n := (int_num t dbg).
Variable d : dctx Z W.
Hypothesis Hd : unchecked_context n L random E dbg cf = Ok d.
Notation c := (to_ctx E d).

Ltac bin i := unfold apply_binary; match goal with |- context [get_binary _ ?q] =>
  rewrite (unchecked_bin n L random E dbg cf d i _ q Hd eq_refl (alike_refl q)) end.
Ltac un i := unfold apply_unary; match goal with |- context [get_unary _ ?q] =>
  rewrite (unchecked_un n L random E dbg cf d i _ q Hd eq_refl (alike_refl q)) end.
Ltac fn i := unfold apply_function; match goal with |- context [get_function _ ?q] =>
  rewrite (unchecked_fun n L random E dbg cf d i _ q Hd eq_refl (alike_refl q)) end.

Lemma u_plus_is : forall x y w, apply_binary c (lit "+") x y w = (raw t dbg (x + y), w).
Proof. intros. bin 0%nat. reflexivity. Qed.
Lemma u_minus_is : forall x y w, apply_binary c (lit "-") x y w = (raw t dbg (x - y), w).
Proof. intros. bin 1%nat. reflexivity. Qed.
Lemma u_times_is : forall x y w, apply_binary c (lit "*") x y w = (raw t dbg (x * y), w).
Proof. intros. bin 2%nat. reflexivity. Qed.
Lemma u_div_is : forall x y w, apply_binary c (lit "/") x y w = (if y =? 0 then Err DivisionByZero else raw_div t x y, w).
Proof. intros. bin 3%nat. cbn. unfold lift. destruct (y =? 0); reflexivity. Qed.
Lemma u_mod_is : forall x y w, apply_binary c (lit "mod") x y w = (if y =? 0 then Err DivisionByZero else raw_rem t x y, w).
Proof. intros. bin 5%nat. cbn. unfold lift. destruct (y =? 0); reflexivity. Qed.
Lemma u_uplus_is : forall x w, apply_unary c (lit "+") x w = (Ok x, w).
Proof. intros. un 0%nat. reflexivity. Qed.
Lemma u_uminus_is : forall x w, apply_unary c (lit "-") x w = (raw t dbg (- x), w).
Proof. intros. un 1%nat. reflexivity. Qed.
Lemma u_fact_is : forall x w, apply_unary c (lit "!") x w = uf_call (op_factorial n L) x w.
Proof. intros. un 2%nat. reflexivity. Qed.
Lemma u_sum_is : forall zs w, apply_function c (lit "sum") zs w = fn_call (u_sum n) zs w.
Proof. intros. fn 0%nat. reflexivity. Qed.
Lemma u_avg_is : forall zs w, apply_function c (lit "avg") zs w = fn_call (u_avg n) zs w.
Proof. intros. fn 1%nat. reflexivity. Qed.
Lemma u_prod_is : forall zs w, apply_function c (lit "product") zs w = fn_call (u_prod n) zs w.
Proof. intros. fn 2%nat. reflexivity. Qed.

(** Release builds: the value modulo the size of the type. *)
Lemma ring_release : dbg = false -> 0 < bits t -> forall e w, ring e -> literals_fit t e ->
  exists z, ideal e = Some z /\ denote c e w = (Ok (wrap t z), w).
Proof.
  intros Hdbg Hb. induction e as [v|x|x|g e IH|f g args IH|u e IH|e u IH|o l r IHl IHr|l r IHl IHr] using expr_ind'; intros w Ha Hl; try destruct Ha.
  - exists v. split; [reflexivity|]. simpl in *. rewrite wrap_id by assumption. reflexivity.
  - exact (IH w Ha Hl).
  - destruct (IH w H0 Hl) as (z & Hz & Hden). cbn [denote ideal]. unfold bind. rewrite Hden, Hz. destruct H as [<-|[<-|[]]].
    + exists z. split; [reflexivity|]. apply u_uplus_is.
    + exists (- z). split; [reflexivity|]. rewrite u_uminus_is, Hdbg, raw_release, wrap_opp by exact Hb. reflexivity.
  - destruct H0 as [Hal Har]. destruct Hl as [Hll Hlr]. destruct (IHl w Hal Hll) as (x & Hx & Hdx). destruct (IHr w Har Hlr) as (y & Hy & Hdy).
    cbn [denote ideal]. unfold bind. rewrite Hdx, Hdy, Hx, Hy. destruct H as [<-|[<-|[<-|[]]]].
    + exists (x + y). split; [reflexivity|]. rewrite u_plus_is, Hdbg, raw_release, wrap_add by exact Hb. reflexivity.
    + exists (x - y). split; [reflexivity|]. rewrite u_minus_is, Hdbg, raw_release, wrap_sub by exact Hb. reflexivity.
    + exists (x * y). split; [reflexivity|]. rewrite u_times_is, Hdbg, raw_release, wrap_mul by exact Hb. reflexivity.
  - rename H into Hal, H0 into Har. destruct Hl as [Hll Hlr]. destruct (IHl w Hal Hll) as (x & Hx & Hdx). destruct (IHr w Har Hlr) as (y & Hy & Hdy).
    cbn [denote ideal]. unfold bind. rewrite Hdx, Hdy, Hx, Hy. exists (x * y). split; [reflexivity|]. change times with (lit "*").
    rewrite u_times_is, Hdbg, raw_release, wrap_mul by exact Hb. reflexivity.
Qed.

(** Debug builds: exact, or a panic. *)
Definition good_debug (r : res Z) (e : expr Z) : Prop :=
  match r with Ok v => ideal e = Some v /\ all_fit t e | Err k => False | Panic => ~ all_fit t e end.
Lemma ring_debug : dbg = true -> forall e w, ring e -> literals_fit t e -> exists r, denote c e w = (r, w) /\ good_debug r e.
Proof.
  intros Hdbg. induction e as [v|x|x|g e IH|f g args IH|u e IH|e u IH|o l r IHl IHr|l r IHl IHr] using expr_ind'; intros w Ha Hl; try destruct Ha.
  - exists (Ok v). split; [reflexivity|]. simpl. split; [reflexivity|]. split; [|exact I]. exists v. auto.
  - simpl in Ha, Hl. destruct (IH w Ha Hl) as (r & Hr & Hg). exists r. split; [exact Hr|]. destruct r as [v|k|]; simpl in *; [|exact Hg|tauto].
    destruct Hg as [Hi Hf]. split; [exact Hi|]. split; [apply all_fit_value; exact Hf|exact Hf].
  - simpl in Hl. destruct (IH w H0 Hl) as (r & Hr & Hg). cbn [denote]. unfold bind. rewrite Hr. destruct r as [v|k|]; simpl in Hg; [|destruct Hg|].
    + destruct Hg as [Hi Hf]. destruct H as [<-|[<-|[]]].
      * exists (Ok v). split; [apply u_uplus_is|]. simpl. rewrite Hi. simpl. split; [reflexivity|]. split; [|exact Hf].
        apply all_fit_value in Hf. rewrite Hi in Hf. exact Hf.
      * rewrite u_uminus_is, Hdbg. eexists. split; [reflexivity|]. destruct (raw_debug t (- v)) as [[F ->]|[F ->]]; cbn [good_debug all_fit ideal]; rewrite Hi; cbn.
        -- split; [reflexivity|]. split; [exists (- v); auto|exact Hf].
        -- intros [(z & Hz & Fz) _]. injection Hz as <-. contradiction.
    + exists Panic. split; [reflexivity|]. simpl. intros [_ A]. contradiction.
  - destruct H0 as [Hal Har]. simpl in Hl. destruct Hl as [Hll Hlr]. destruct (IHl w Hal Hll) as (rl & Hrl & Hgl). destruct (IHr w Har Hlr) as (rr & Hrr & Hgr).
    cbn [denote]. unfold bind. rewrite Hrl. destruct rl as [x|k|]; simpl in Hgl; [|destruct Hgl|].
    2: { exists Panic. split; [reflexivity|]. simpl. intros (_ & A & _). contradiction. }
    rewrite Hrr. destruct rr as [y|k|]; simpl in Hgr; [|destruct Hgr|].
    2: { exists Panic. split; [reflexivity|]. simpl. intros (_ & _ & A & _). contradiction. }
    destruct Hgl as [Hil Hfl]. destruct Hgr as [Hir Hfr].
    assert (G : forall z, ideal_op o x y = Some z -> (o <> lit "mod") -> good_debug (raw t true z) (EBin o l r)).
    { intros z Hz Hm. pose proof (ideal_bin o l r x y Hil Hir) as Hi. destruct (raw_debug t z) as [[F ->]|[F ->]]; cbn [good_debug all_fit]; rewrite Hi, Hz.
      - split; [reflexivity|]. split; [exists z; auto|]. split; [exact Hfl|]. split; [exact Hfr|]. intros Ho. contradiction.
      - intros [(z' & Hz' & Fz) _]. injection Hz' as <-. contradiction. }
    destruct H as [<-|[<-|[<-|[]]]].
    + rewrite u_plus_is, Hdbg. eexists. split; [reflexivity|]. apply G; [reflexivity|discriminate].
    + rewrite u_minus_is, Hdbg. eexists. split; [reflexivity|]. apply G; [reflexivity|discriminate].
    + rewrite u_times_is, Hdbg. eexists. split; [reflexivity|]. apply G; [reflexivity|discriminate].
  - rename H into Hal, H0 into Har. simpl in Hl. destruct Hl as [Hll Hlr]. destruct (IHl w Hal Hll) as (rl & Hrl & Hgl). destruct (IHr w Har Hlr) as (rr & Hrr & Hgr).
    cbn [denote]. unfold bind. rewrite Hrl. destruct rl as [x|k|]; simpl in Hgl; [|destruct Hgl|].
    2: { exists Panic. split; [reflexivity|]. simpl. intros (_ & A & _). contradiction. }
    rewrite Hrr. destruct rr as [y|k|]; simpl in Hgr; [|destruct Hgr|].
    2: { exists Panic. split; [reflexivity|]. simpl. intros (_ & _ & A). contradiction. }
    destruct Hgl as [Hil Hfl]. destruct Hgr as [Hir Hfr]. change times with (lit "*"). rewrite u_times_is, Hdbg. eexists. split; [reflexivity|].
    destruct (raw_debug t (x * y)) as [[F ->]|[F ->]]; cbn [good_debug all_fit ideal]; rewrite Hil, Hir.
    + split; [reflexivity|]. split; [exists (x * y); auto|auto].
    + intros [(z' & Hz' & Fz) _]. injection Hz' as <-. contradiction.
Qed.
End Unchecked.

(** ** Aggregates *)
Section Agg.
Variable t : ity.
Notation ck z := (or_overflow (checked t z)).

(** The loop over the arguments: [op] is the ideal operation with unit [u]. *)
Variable op : Z -> Z -> Z.
Variable u : Z.
Hypothesis assoc : forall a b c, op a (op b c) = op (op a b) c.
Hypothesis unit_l : forall a, op u a = a.
Hypothesis unit_r : forall a, op a u = a.
Definition total (zs : list Z) : Z := fold_right op u zs.

Lemma fold_args_some : forall zs a, fits t a ->
  ((forall k, (k <= List.length zs)%nat -> fits t (op a (total (firstn k zs)))) /\
     fold_args (fun x y => ck (op x y)) (Some a) zs = Ok (Some (op a (total zs)))) \/
  ((exists k, (k <= List.length zs)%nat /\ ~ fits t (op a (total (firstn k zs)))) /\
     fold_args (fun x y => ck (op x y)) (Some a) zs = Err Overflow).
Proof.
  induction zs as [|z zs IH]; intros a Ha.
  - left. split; [|simpl; unfold total; simpl; rewrite unit_r; reflexivity]. intros k Hk. replace k with 0%nat by (simpl in Hk; lia). unfold total. simpl. rewrite unit_r. exact Ha.
  - cbn [fold_args]. destruct (checked_cases t (op a z)) as [[F ->]|[F ->]].
    + cbn [rbind]. destruct (IH _ F) as [[H1 H2]|[(k & Hk & H1) H2]]; [left|right].
      * split; [|rewrite H2; unfold total; cbn [fold_right]; rewrite assoc; reflexivity]. intros [|k] Hk; [unfold total; simpl; rewrite unit_r; exact Ha|].
        cbn [firstn]. unfold total. cbn [fold_right]. rewrite assoc. apply H1. simpl in Hk. lia.
      * split; [|exact H2]. exists (S k). split; [simpl; lia|]. cbn [firstn]. unfold total. cbn [fold_right]. rewrite assoc. exact H1.
    + right. split; [|reflexivity]. exists 1%nat. split; [simpl; lia|]. cbn [firstn]. unfold total. cbn [fold_right]. rewrite unit_r. exact F.
Qed.
Lemma fold_args_none : forall z zs, fits t z ->
  ((forall k, (1 <= k <= S (List.length zs))%nat -> fits t (total (firstn k (z :: zs)))) /\
     fold_args (fun x y => ck (op x y)) None (z :: zs) = Ok (Some (total (z :: zs)))) \/
  ((exists k, (1 <= k <= S (List.length zs))%nat /\ ~ fits t (total (firstn k (z :: zs)))) /\
     fold_args (fun x y => ck (op x y)) None (z :: zs) = Err Overflow).
Proof.
  intros z zs Hz. cbn [fold_args]. destruct (fold_args_some zs z Hz) as [[H1 H2]|[(k & Hk & H1) H2]]; [left|right].
  - split; [|exact H2]. intros [|k] Hk; [lia|]. cbn [firstn]. apply H1. lia.
  - split; [|exact H2]. exists (S k). split; [lia|]. exact H1.
Qed.
End Agg.

(** Maximum and minimum. *)
Section Best.
Variable better : Z -> Z -> bool.
Variable le : Z -> Z -> Prop.
Hypothesis le_refl : forall a, le a a.
Hypothesis le_trans : forall a b c, le a b -> le b c -> le a c.
Hypothesis yes : forall x a, better x a = true -> le a x.
Hypothesis no : forall x a, better x a = false -> le x a.
Lemma best_some : forall zs a, exists r, best better (Some a) zs = Some r /\ In r (a :: zs) /\ forall z, In z (a :: zs) -> le z r.
Proof.
  induction zs as [|z zs IH]; intros a; [exists a; split; [reflexivity|]; split; [left; reflexivity|intros z [<-|[]]; apply le_refl]|].
  cbn [best]. destruct (better z a) eqn:Hb.
  - destruct (IH z) as (r & Hr & Hin & Hle). exists r. split; [exact Hr|]. split; [right; exact Hin|].
    intros y [<-|Hy]; [|apply Hle; exact Hy]. eapply le_trans; [apply yes; exact Hb|]. apply Hle. left. reflexivity.
  - destruct (IH a) as (r & Hr & Hin & Hle). exists r. split; [exact Hr|]. split; [destruct Hin as [<-|Hin]; [left; reflexivity|right; right; exact Hin]|].
    intros y [<-|[<-|Hy]]; [apply Hle; left; reflexivity| |apply Hle; right; exact Hy]. eapply le_trans; [apply no; exact Hb|]. apply Hle. left. reflexivity.
Qed.
End Best.

Lemma n_lt_int : forall t dbg a b, n_lt (int_num t dbg) a b = (a <? b).
Proof. intros. unfold n_lt, Z.ltb. simpl. destruct (a ?= b); reflexivity. Qed.
Lemma n_ge_int : forall t dbg a b, n_ge (int_num t dbg) a b = (b <=? a).
Proof. intros. unfold n_ge, Z.leb. simpl. rewrite (Z.compare_antisym a b). destruct (a ?= b); reflexivity. Qed.
Lemma n_gt_int : forall t dbg a b, n_gt (int_num t dbg) a b = (b <? a).
Proof. intros. unfold n_gt, Z.ltb. simpl. rewrite (Z.compare_antisym a b). destruct (a ?= b); reflexivity. Qed.

(** ** Factorial *)
Section Fact.
Variable t : ity.
Variable dbg : bool.
Variable L : libm.
Notation n := (int_num t dbg).

Lemma fact_pos : forall k, 1 <= SpecOps.fact k.
Proof. induction k as [|k IH]; [simpl; lia|]. cbn [SpecOps.fact]. nia. Qed.
Lemma fits_between : forall a b z, fits t a -> fits t b -> a <= z <= b -> fits t z.
Proof. intros a b z. unfold fits. destruct (signed t); lia. Qed.
Lemma fits_le : forall b z, fits t b -> 0 <= z <= b -> fits t z.
Proof. intros b z. unfold fits. destruct (signed t); [|lia]. pose proof (Z.pow_nonneg 2 (bits t - 1) ltac:(lia)). lia. Qed.

(** The loop, from [total] with [next = k]: in a debug build exact or a panic, in a release build wrapped. *)
Lemma fact_loop_debug : dbg = true -> forall k fuel tot, (k <= fuel)%nat -> 1 <= tot -> fits t tot -> fits t (Z.of_nat k) ->
  (fits t (tot * SpecOps.fact k) /\ fact_loop n fuel tot (Z.of_nat k) = Some (Ok (tot * SpecOps.fact k, 0))) \/
  (~ fits t (tot * SpecOps.fact k) /\ fact_loop n fuel tot (Z.of_nat k) = Some Panic).
Proof.
  intros Hdbg. induction k as [|k IH]; intros fuel tot Hf Ht Ft Fk.
  - left. cbn [SpecOps.fact]. rewrite Z.mul_1_r. split; [exact Ft|]. destruct fuel; reflexivity.
  - destruct fuel as [|fuel]; [lia|]. cbn [fact_loop]. rewrite n_ge_int. change (n_one n) with 1. replace (1 <=? Z.of_nat (S k)) with true by (symmetry; apply Z.leb_le; lia).
    change (n_mul n tot (Z.of_nat (S k))) with (raw t dbg (tot * Z.of_nat (S k))). rewrite Hdbg. destruct (raw_debug t (tot * Z.of_nat (S k))) as [[F ->]|[F ->]].
    + change (n_sub (int_num t true) (Z.of_nat (S k)) 1) with (raw t true (Z.of_nat (S k) - 1)). replace (Z.of_nat (S k) - 1) with (Z.of_nat k) by lia.
      assert (Fk' : fits t (Z.of_nat k)) by (eapply fits_le; [exact Fk|lia]).
      unfold raw. rewrite (proj2 (fits_range t (Z.of_nat k)) Fk'). rewrite Hdbg in IH.
      assert (Hp : 1 <= tot * Z.of_nat (S k)) by (apply (Z.mul_le_mono_nonneg 1 tot 1 (Z.of_nat (S k))); lia).
      destruct (IH fuel (tot * Z.of_nat (S k)) ltac:(lia) Hp F Fk') as [[H1 H2]|[H1 H2]]; [left|right]; cbn [SpecOps.fact]; rewrite Z.mul_assoc; auto.
    + right. split; [|reflexivity]. intros G. apply F. eapply fits_le; [exact G|]. cbn [SpecOps.fact]. pose proof (fact_pos k). nia.
Qed.
Lemma fact_loop_release : dbg = false -> 0 < bits t -> forall k fuel tot, (k <= fuel)%nat -> fits t (Z.of_nat k) ->
  fact_loop n fuel (wrap t tot) (Z.of_nat k) = Some (Ok (wrap t (tot * SpecOps.fact k), 0)).
Proof.
  intros Hdbg Hb. induction k as [|k IH]; intros fuel tot Hf Fk.
  - cbn [SpecOps.fact]. rewrite Z.mul_1_r. destruct fuel; reflexivity.
  - destruct fuel as [|fuel]; [lia|]. cbn [fact_loop]. rewrite n_ge_int. change (n_one n) with 1. replace (1 <=? Z.of_nat (S k)) with true by (symmetry; apply Z.leb_le; lia).
    change (n_mul n (wrap t tot) (Z.of_nat (S k))) with (raw t dbg (wrap t tot * Z.of_nat (S k))). rewrite Hdbg, raw_release by exact Hb.
    change (n_sub (int_num t false) (Z.of_nat (S k)) 1) with (raw t false (Z.of_nat (S k) - 1)). replace (Z.of_nat (S k) - 1) with (Z.of_nat k) by lia.
    assert (Fk' : fits t (Z.of_nat k)) by (eapply fits_le; [exact Fk|lia]).
    unfold raw. rewrite (proj2 (fits_range t (Z.of_nat k)) Fk'). rewrite Hdbg in IH.
    replace (wrap t (wrap t tot * Z.of_nat (S k))) with (wrap t (tot * Z.of_nat (S k))).
    + rewrite IH by (auto; lia). cbn [SpecOps.fact]. rewrite Z.mul_assoc. reflexivity.
    + rewrite <- (wrap_id t (Z.of_nat (S k)) Hb Fk) at 2. rewrite wrap_mul by exact Hb. reflexivity.
Qed.

Lemma fits_one : 2 <= bits t -> fits t 1.
Proof.
  intros H. unfold fits. pose proof (Z.pow_le_mono_r 2 1 (bits t - 1) ltac:(lia) ltac:(lia)).
  pose proof (Z.pow_le_mono_r 2 1 (bits t) ltac:(lia) ltac:(lia)). destruct (signed t); lia.
Qed.
Lemma factorial_int : 2 <= bits t -> forall z, fits t z -> 0 <= z ->
  exists r, factorial n L (n_fuel n z) z = Some r /\
    (fits t (SpecOps.fact (Z.to_nat z)) -> r = Ok (SpecOps.fact (Z.to_nat z))) /\
    (~ fits t (SpecOps.fact (Z.to_nat z)) -> r = if dbg then Panic else Ok (wrap t (SpecOps.fact (Z.to_nat z)))).
Proof.
  intros Hb z Fz Hz. unfold factorial. rewrite !n_lt_int. change (n_zero n) with 0. change (n_one n) with 1.
  replace (z <? 0) with false by (symmetry; apply Z.ltb_ge; lia). change (n_is_zero n z) with (z =? 0). change (n_is_one n z) with (z =? 1).
  destruct (z =? 0) eqn:E0; [apply Z.eqb_eq in E0; subst z|destruct (z =? 1) eqn:E1; [apply Z.eqb_eq in E1; subst z|]]; cbn [orb].
  - exists (Ok 1). split; [reflexivity|]. split; [reflexivity|]. change (SpecOps.fact (Z.to_nat 0)) with 1. intros F. pose proof (fits_one Hb). contradiction.
  - exists (Ok 1). split; [reflexivity|]. split; [reflexivity|]. change (SpecOps.fact (Z.to_nat 1)) with 1. intros F. pose proof (fits_one Hb). contradiction.
  - apply Z.eqb_neq in E0, E1. replace (z <? 1) with false by (symmetry; apply Z.ltb_ge; lia).
    change (n_sub n z 1) with (raw t dbg (z - 1)). assert (F1 : fits t (z - 1)) by (eapply fits_le; [exact Fz|lia]).
    unfold raw. rewrite (proj2 (fits_range t (z - 1)) F1). change (n_fuel n z) with (Z.to_nat z).
    replace (z - 1) with (Z.of_nat (Z.to_nat (z - 1))) in F1 |- * by lia. set (k := Z.to_nat (z - 1)) in *.
    replace (Z.to_nat z) with (S k) in * by lia. assert (Hzk : z = Z.of_nat (S k)) by lia. clearbody k.
    replace (SpecOps.fact (S k)) with (z * SpecOps.fact k) in * by (cbn [SpecOps.fact]; rewrite Hzk; reflexivity).
    destruct dbg eqn:Hdbg.
    + destruct (fact_loop_debug Hdbg k (S k) z) as [[H1 H2]|[H1 H2]]; auto; try lia; rewrite Hdbg in H2; rewrite H2.
      * eexists. split; [reflexivity|]. split; [reflexivity|intros; contradiction].
      * eexists. split; [reflexivity|]. split; [intros; contradiction|reflexivity].
    + pose proof (fact_loop_release Hdbg ltac:(lia) k (S k) z ltac:(lia) F1) as H2. rewrite wrap_id in H2 by (auto; lia). rewrite Hdbg in H2. rewrite H2.
      eexists. split; [reflexivity|]. split; [|reflexivity]. intros F. cbn. rewrite wrap_id by (auto; lia). reflexivity.
Qed.
End Fact.
