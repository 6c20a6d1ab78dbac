(** * C112: sum, product, avg, max and min in unchecked integer contexts; C27 again: what is left of them in checked ones *)
From Coq Require Import List NArith ZArith Bool Arith Lia String.
From Verif Require Import ModelBase ModelContext ModelEvaluator ModelText ModelDefault ModelStr ModelFloat ModelNum ModelOps ModelStd
  SpecExpr SpecText SpecOps ProofText ProofDefault ProofBuild ProofCtx ProofOps ProofOps2 ProofWf.
Import ListNotations.
Local Open Scope Z_scope.

(** ** The loops *)
Section Loops.
Variable t : ity.
Variable op : Z -> Z -> Z.
Variable u : Z.
Hypothesis assoc : forall a b c, op a (op b c) = op (op a b) c.
Hypothesis unit_r : forall a, op a u = a.
Notation all := (fold_right op u).

Lemma loop_release : 0 < bits t -> (forall a b, wrap t (op (wrap t a) (wrap t b)) = wrap t (op a b)) ->
  forall zs a, Forall (fits t) zs -> fold_args (fun x y => raw t false (op x y)) (Some (wrap t a)) zs = Ok (Some (wrap t (op a (all zs)))).
Proof.
  intros Hb Hw. induction zs as [|z zs IH]; intros a F; cbn [fold_args fold_right]; [rewrite unit_r; reflexivity|].
  inversion F as [|? ? Fz Fzs]; subst. rewrite raw_release by exact Hb. cbn [rbind]. rewrite <- (wrap_id t z Hb Fz) at 1. rewrite Hw, (IH _ Fzs), assoc. reflexivity.
Qed.
Lemma loop_debug : forall zs a, fits t a ->
  ((forall k, (k <= List.length zs)%nat -> fits t (op a (all (firstn k zs)))) /\ fold_args (fun x y => raw t true (op x y)) (Some a) zs = Ok (Some (op a (all zs)))) \/
  ((exists k, (k <= List.length zs)%nat /\ ~ fits t (op a (all (firstn k zs)))) /\ fold_args (fun x y => raw t true (op x y)) (Some a) zs = Panic).
Proof.
  induction zs as [|z zs IH]; intros a Ha.
  - left. split; [|cbn; rewrite unit_r; reflexivity]. intros k Hk. replace k with 0%nat by (simpl in Hk; lia). cbn. rewrite unit_r. exact Ha.
  - cbn [fold_args]. destruct (raw_debug t (op a z)) as [[F ->]|[F ->]].
    + cbn [rbind]. destruct (IH _ F) as [[H1 H2]|[(k & Hk & H1) H2]]; [left|right].
      * split; [|rewrite H2; cbn [fold_right]; rewrite assoc; reflexivity]. intros [|k] Hk; [cbn; rewrite unit_r; exact Ha|].
        cbn [firstn fold_right]. rewrite assoc. apply H1. simpl in Hk. lia.
      * split; [|exact H2]. exists (S k). split; [simpl; lia|]. cbn [firstn fold_right]. rewrite assoc. exact H1.
    + right. split; [|reflexivity]. exists 1%nat. split; [simpl; lia|]. cbn [firstn fold_right]. rewrite unit_r. exact F.
Qed.
End Loops.

(** A sum or product [total] of a list, [parts] telling its first parts: debug builds give it exactly, or panic if one of the parts does not fit; release builds give it modulo the size of the type. *)
Definition running (t : ity) (dbg : bool) (parts : nat -> Z) (len : nat) (r : res Z) : Prop :=
  if dbg then ((forall k, (1 <= k <= len)%nat -> fits t (parts k)) /\ r = Ok (parts len)) \/ ((exists k, (1 <= k <= len)%nat /\ ~ fits t (parts k)) /\ r = Panic)
  else wrapped t (parts len) r.

Lemma loop_running : forall t dbg op u, 0 < bits t -> (forall a b c, op a (op b c) = op (op a b) c) -> (forall a, op a u = a) ->
  (forall a b, wrap t (op (wrap t a) (wrap t b)) = wrap t (op a b)) -> forall zs, zs <> [] -> Forall (fits t) zs ->
  exists r, fold_args (fun x y => raw t dbg (op x y)) None zs = match r with Ok v => Ok (Some v) | Err k => Err k | Panic => Panic end /\
    (forall k, r <> Err k) /\ (forall v, r = Ok v -> fits t v) /\ running t dbg (fun k => fold_right op u (firstn k zs)) (List.length zs) r.
Proof.
  intros t dbg op u Hb As Un Hw [|z zs] N F; [congruence|]. inversion F as [|? ? Fz Fzs]; subst. cbn [fold_args]. unfold running. rewrite firstn_all. destruct dbg.
  - destruct (loop_debug t op u As Un zs z Fz) as [[H1 H2]|[(k & Hk & H1) H2]]; rewrite H2.
    + exists (Ok (op z (fold_right op u zs))). split; [reflexivity|]. split; [discriminate|]. split.
      * intros v E. injection E as <-. specialize (H1 (List.length zs) (Nat.le_refl _)). rewrite firstn_all in H1. exact H1.
      * left. split; [|reflexivity]. intros [|k] Hk; [lia|]. cbn [firstn fold_right]. apply H1. cbn [List.length] in Hk. lia.
    + exists Panic. split; [reflexivity|]. split; [discriminate|]. split; [discriminate|]. right. split; [|reflexivity]. exists (S k). split; [cbn [List.length]; lia|exact H1].
  - pose proof (loop_release t op u As Un Hb Hw zs z Fzs) as R. rewrite (wrap_id t z Hb Fz) in R. rewrite R. clear R. exists (Ok (wrap t (op z (fold_right op u zs)))). split; [reflexivity|]. split; [discriminate|].
    destruct (wrap_spec t (op z (fold_right op u zs)) Hb) as [S1 S2]. split; [intros v E; injection E as <-; exact S1|]. exists (wrap t (op z (fold_right op u zs))). auto.
Qed.

Section Calls.
Context {W : Type}.
Variable t : ity.
Variable dbg : bool.
Variable L : libm.
Variable rnd : W -> f64 * W.
Variable E : env.
Variable cf : config.
Variable d : dctx Z W.
Hypothesis Hd : unchecked_context (int_num t dbg) L rnd E dbg cf = Ok d.
Lemma u_max_is : forall zs w, apply_function (to_ctx E d) (lit "max") zs w = fn_call (op_max (int_num t dbg)) zs w.
Proof. intros. unfold apply_function. rewrite (unchecked_fun (int_num t dbg) L rnd E dbg cf d 3 _ (lit "max") Hd eq_refl (alike_refl _)). reflexivity. Qed.
Lemma u_min_is : forall zs w, apply_function (to_ctx E d) (lit "min") zs w = fn_call (op_min (int_num t dbg)) zs w.
Proof. intros. unfold apply_function. rewrite (unchecked_fun (int_num t dbg) L rnd E dbg cf d 4 _ (lit "min") Hd eq_refl (alike_refl _)). reflexivity. Qed.
End Calls.

(** ** C112 *)

(** [sum] and [product] of one or more values. *)
Theorem C112_sum_product : forall W t dbg L (rnd : W -> f64 * W) E cf d,
  unchecked_context (int_num t dbg) L rnd E dbg cf = Ok d -> 0 < bits t -> forall zs w, zs <> [] -> Forall (fits t) zs ->
  (exists r, apply_function (to_ctx E d) (lit "sum") zs w = (r, w) /\ running t dbg (fun k => sum_first k zs) (List.length zs) r) /\
  (exists r, apply_function (to_ctx E d) (lit "product") zs w = (r, w) /\ running t dbg (fun k => product_first k zs) (List.length zs) r).
Proof.
  intros W t dbg L rnd E cf d H Hb zs w N F. rewrite (u_sum_is t dbg L rnd E cf d H), (u_prod_is t dbg L rnd E cf d H). unfold u_sum, u_prod, fun_, lift. cbn [fn_call int_num n_add n_mul].
  split; [destruct (loop_running t dbg Z.add 0 Hb Z.add_assoc Z.add_0_r (fun a b => wrap_add t a b Hb) zs N F) as (r & -> & K & _ & R)
         |destruct (loop_running t dbg Z.mul 1 Hb Z.mul_assoc Z.mul_1_r (fun a b => wrap_mul t a b Hb) zs N F) as (r & -> & K & _ & R)];
    exists r; (split; [|exact R]); destruct r as [v|k|]; cbn [rbind or_no_args]; reflexivity.
Qed.
Print Assumptions C112_sum_product.

(** [avg]: the truncated quotient of what [sum] gives by the number of arguments; a panic if [sum] panics or the number of arguments is no value of the type. *)
Theorem C112_avg : forall W t dbg L (rnd : W -> f64 * W) E cf d,
  unchecked_context (int_num t dbg) L rnd E dbg cf = Ok d -> 0 < bits t -> forall zs w, zs <> [] -> Forall (fits t) zs ->
  let r := apply_function (to_ctx E d) (lit "avg") zs w in
  (forall s, apply_function (to_ctx E d) (lit "sum") zs w = (Ok s, w) -> fits t (Z.of_nat (List.length zs)) ->
     exists q rest, is_quotient s (Z.of_nat (List.length zs)) q rest /\ r = (Ok q, w)) /\
  (apply_function (to_ctx E d) (lit "sum") zs w = (Panic, w) \/ ~ fits t (Z.of_nat (List.length zs)) -> r = (Panic, w)).
Proof.
  intros W t dbg L rnd E cf d H Hb zs w N F. cbv zeta. rewrite (u_sum_is t dbg L rnd E cf d H), (u_avg_is t dbg L rnd E cf d H). unfold u_sum, u_avg, fun_, lift. cbn [fn_call int_num n_add n_from_usize n_div].
  destruct (loop_running t dbg Z.add 0 Hb Z.add_assoc Z.add_0_r (fun a b => wrap_add t a b Hb) zs N F) as (r & -> & K & Fr & _).
  set (m := Z.of_nat (List.length zs)). assert (Hm : 0 < m) by (unfold m; destruct zs; [congruence|cbn [List.length]; lia]).
  destruct r as [s|k|]; [|exfalso; exact (K k eq_refl)|].
  - specialize (Fr s eq_refl). cbn [rbind or_no_args]. unfold checked. split.
    + intros s' Es Fm. injection Es as <-. apply fits_range in Fm. rewrite Fm. exists (Z.quot s m), (Z.rem s m). split; [apply quot_spec; lia|].
      unfold raw_div. replace (m =? 0) with false by (symmetry; apply Z.eqb_neq; lia).
      assert (Q : (0 <= s /\ 0 <= Z.quot s m <= s) \/ (s <= 0 /\ s <= Z.quot s m <= 0)).
      { destruct (quot_spec s m ltac:(lia)) as (A & B & C1 & C2). destruct (Z.le_ge_cases 0 s); [left|right]; split; auto; nia. }
      assert (Fq : fits t (Z.quot s m)). { unfold fits in *. destruct (signed t); [|lia]. pose proof (Z.pow_nonneg 2 (bits t - 1) ltac:(lia)). lia. }
      apply fits_range in Fq. rewrite Fq. reflexivity.
    + intros [X|X]; [discriminate|]. apply not_fits_range in X. rewrite X. reflexivity.
  - cbn [rbind]. split; [intros s Es; discriminate|reflexivity].
Qed.
Print Assumptions C112_avg.

(** [max] and [min] as in checked contexts; no arguments at all. *)
Theorem C112_max_min : forall W t dbg L (rnd : W -> f64 * W) E cf d,
  unchecked_context (int_num t dbg) L rnd E dbg cf = Ok d -> forall zs w,
  ((2 <= List.length zs)%nat ->
     (exists m, apply_function (to_ctx E d) (lit "max") zs w = (Ok m, w) /\ In m zs /\ forall z, In z zs -> z <= m) /\
     (exists m, apply_function (to_ctx E d) (lit "min") zs w = (Ok m, w) /\ In m zs /\ forall z, In z zs -> m <= z)) /\
  ((List.length zs < 2)%nat -> apply_function (to_ctx E d) (lit "max") zs w = (Err InvalidArgumentCount, w) /\
     apply_function (to_ctx E d) (lit "min") zs w = (Err InvalidArgumentCount, w)).
Proof.
  intros W t dbg L rnd E cf d H zs w. rewrite (u_max_is t dbg L rnd E cf d H), (u_min_is t dbg L rnd E cf d H).
  unfold op_max, op_min, fun_, lift. cbn [fn_call]. split; intros Hl.
  - replace (List.length zs <=? 1)%nat with false by (symmetry; apply Nat.leb_gt; lia). destruct zs as [|z zs]; [cbn in Hl; lia|]. cbn [best].
    destruct (best_some (n_gt (int_num t dbg)) Z.le Z.le_refl Z.le_trans) with (zs := zs) (a := z) as (m & Hm & Hin & Hle).
    { intros x a. rewrite n_gt_int. rewrite Z.ltb_lt. lia. } { intros x a. rewrite n_gt_int. rewrite Z.ltb_ge. lia. }
    destruct (best_some (n_lt (int_num t dbg)) Z.ge) with (zs := zs) (a := z) as (m' & Hm' & Hin' & Hle').
    { intros; lia. } { intros; lia. } { intros x a. rewrite n_lt_int. rewrite Z.ltb_lt. lia. } { intros x a. rewrite n_lt_int. rewrite Z.ltb_ge. lia. }
    rewrite Hm, Hm'. split; [exists m; auto|]. exists m'. split; [reflexivity|]. split; [exact Hin'|]. intros y Hy. apply Hle' in Hy. lia.
  - replace (List.length zs <=? 1)%nat with true by (symmetry; apply Nat.leb_le; lia). auto.
Qed.
Print Assumptions C112_max_min.

(** Without arguments [sum], [product] and [avg] report their number. *)
Theorem C112_nothing : forall W t dbg L (rnd : W -> f64 * W) E cf d f w,
  unchecked_context (int_num t dbg) L rnd E dbg cf = Ok d -> In f [lit "sum"; lit "product"; lit "avg"] -> apply_function (to_ctx E d) f [] w = (Err InvalidArgumentCount, w).
Proof.
  intros W t dbg L rnd E cf d f w Hd [<-|[<-|[<-|[]]]].
  - rewrite (u_sum_is t dbg L rnd E cf d Hd). reflexivity.
  - rewrite (u_prod_is t dbg L rnd E cf d Hd). reflexivity.
  - rewrite (u_avg_is t dbg L rnd E cf d Hd). reflexivity.
Qed.
Print Assumptions C112_nothing.

(** ** C27, where PropOps leaves off *)

(** The same in checked contexts, and [abs] of another number of arguments than one. *)
Theorem C27_argument_count : forall W t dbg L (rnd : W -> f64 * W) docs E cf d w,
  checked_context (int_num t dbg) L rnd docs E dbg cf = Ok d ->
  (forall f, In f [lit "sum"; lit "product"; lit "avg"] -> apply_function (to_ctx E d) f [] w = (Err InvalidArgumentCount, w)) /\
  (forall zs, List.length zs <> 1%nat -> apply_function (to_ctx E d) (lit "abs") zs w = (Err InvalidArgumentCount, w)).
Proof.
  intros W t dbg L rnd docs E cf d w Hd. split.
  - intros f [<-|[<-|[<-|[]]]].
    + rewrite (c_sum_is t dbg L rnd docs E cf d Hd). reflexivity.
    + rewrite (c_prod_is t dbg L rnd docs E cf d Hd). reflexivity.
    + rewrite (c_avg_is t dbg L rnd docs E cf d Hd). reflexivity.
  - intros zs Hz. rewrite (c_abs_is t dbg L rnd docs E cf d Hd). destruct zs as [|x [|y zs]]; [reflexivity|exfalso; apply Hz; reflexivity|reflexivity].
Qed.
Print Assumptions C27_argument_count.

(** [avg] reports the overflow of the sum. *)
Theorem C27_avg_overflow : forall W t dbg L (rnd : W -> f64 * W) docs E cf d,
  checked_context (int_num t dbg) L rnd docs E dbg cf = Ok d -> forall zs w, zs <> [] -> Forall (fits t) zs ->
  ~ (forall k, (1 <= k <= List.length zs)%nat -> fits t (sum_first k zs)) -> apply_function (to_ctx E d) (lit "avg") zs w = (Err Overflow, w).
Proof.
  intros W t dbg L rnd docs E cf d H zs w N F X. rewrite (c_avg_is t dbg L rnd docs E cf d H).
  destruct zs as [|z zs]; [congruence|]. inversion F as [|? ? Fz Fzs]; subst. unfold c_avg, fun_, lift. cbn [fn_call int_num n_cadd].
  destruct (fold_args_none t Z.add 0 Z.add_assoc Z.add_0_l Z.add_0_r z zs Fz) as [[S1 _]|[_ ->]]; [exfalso; apply X; exact S1|reflexivity].
Qed.
Print Assumptions C27_avg_overflow.

Example C27_overflow_case : let c := std_ctx plain_config in Forall (fits i64) [2 ^ 63 - 1; 1; -1] /\ ~ fits i64 (sum_first 2 [2 ^ 63 - 1; 1; -1]) /\
  fst (apply_function c (lit "avg") [2 ^ 63 - 1; 1; -1] tt) = Err Overflow /\ fst (apply_function c (lit "abs") [1; 2] tt) = Err InvalidArgumentCount /\ fst (apply_function c (lit "avg") [] tt) = Err InvalidArgumentCount.
Proof. split; [repeat constructor; unfold fits; cbn; lia|]. split; [unfold fits; cbn; lia|]. split; [vm_compute; reflexivity|]. split; vm_compute; reflexivity. Qed.

Definition small_unchecked (dbg : bool) : dctx Z unit := unres (unchecked_context (int_num i8 dbg) no_libm no_random std_env dbg plain_config) plain_config.
Example C112_case :
  unchecked_context (int_num i8 false) no_libm no_random std_env false plain_config = Ok (small_unchecked false) /\
  unchecked_context (int_num i8 true) no_libm no_random std_env true plain_config = Ok (small_unchecked true) /\
  let call (dbg : bool) (f : string) zs := fst (apply_function (to_ctx std_env (small_unchecked dbg)) (lit f) zs tt) in
  Forall (fits i8) [100; 50; -30] /\ call false "sum"%string [100; 50; -30] = Ok 120 /\ call true "sum"%string [100; 50; -30] = Panic /\ call false "avg"%string [100; 50] = Ok (-53) /\
  call true "avg"%string [100; -5; 2] = Ok 32 /\ call false "product"%string [16; 17] = Ok 16 /\ call true "product"%string [5; -6; 4] = Ok (-120) /\ call true "max"%string [3; 9; -4] = Ok 9 /\ call true "sum"%string [] = Err InvalidArgumentCount.
Proof.
  split; [unfold small_unchecked; erewrite unchecked_is by reflexivity; reflexivity|]. split; [unfold small_unchecked; erewrite unchecked_is by reflexivity; reflexivity|]. cbv zeta.
  split; [repeat constructor; unfold fits; cbn; lia|]. repeat (split; [vm_compute; reflexivity|]). vm_compute. reflexivity.
Qed.
