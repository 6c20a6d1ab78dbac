(** * Theorems: number types made with the macros of numeric_traits/mod.rs (C64) *)
From Coq Require Import List NArith ZArith Bool Lia String.
From Verif Require Import ModelBase ModelContext ModelText ModelDefault ModelSplit ModelTokenizer ModelFloat ModelNum ModelOps ModelParse ModelStd ModelNewtype
  SpecText SpecExpr SpecOps ProofText ProofDefault ProofBuild ProofCtx ProofOps ProofShape.
Import ListNotations.
Local Open Scope Z_scope.

(** Setting variables, one after the other. *)
Definition assign {V W} (E : env) (dbg : bool) (vars : list (str * V)) (d : dctx V W) : dctx V W :=
  fold_left (fun d x => snd (set_variable E dbg (fst x) (snd x) d)) vars d.

(** The same up to the operators. *)
Definition twin {V W} (d d' : dctx V W) : Prop :=
  d_vars d = d_vars d' /\ d_consts d = d_consts d' /\ d_config d = d_config d'.
Lemma assign_twin : forall V W E dbg vars (d d' : dctx V W), twin d d' ->
  twin (assign E dbg vars d) (assign E dbg vars d') /\
  d_funs (assign E dbg vars d) = d_funs d /\ d_unary (assign E dbg vars d) = d_unary d /\ d_binary (assign E dbg vars d) = d_binary d.
Proof.
  intros V W E dbg vars. induction vars as [|[x v] vars IH]; intros d d' H; [repeat split; apply H|]. unfold assign in *. cbn [fold_left].
  assert (T : twin (snd (set_variable E dbg x v d)) (snd (set_variable E dbg x v d')) /\
    d_funs (snd (set_variable E dbg x v d)) = d_funs d /\ d_unary (snd (set_variable E dbg x v d)) = d_unary d /\ d_binary (snd (set_variable E dbg x v d)) = d_binary d).
  { destruct H as (H1 & H2 & H3). unfold set_variable. rewrite <- H2. destruct (validate dbg x); [|repeat split; auto..].
    destruct (existsb _ _); repeat split; cbn; congruence. }
  cbn [fst snd]. destruct T as (T & F1 & F2 & F3). destruct (IH _ _ T) as (IH' & I1 & I2 & I3). split; [exact IH'|]. rewrite I1, I2, I3. auto.
Qed.

(** A word names an operator. *)
Definition means (E : env) (x : str) (op : string) : bool := eq_ignore_case E x (lit op).

(** Everything but [!] is, in a checked context, what it is for the type of the field. *)
Theorem C64_checked_same : forall V W (n : num V) L (rnd : W -> f64 * W) docs E dbg cf d d',
  checked_context n L rnd docs E dbg cf = Ok d -> checked_context (newtype_num n) L rnd docs E dbg cf = Ok d' ->
  forall vars parse splitter s w, (forall x, In x (splitter s) -> means E x "!" = false) ->
  eval (to_ctx E (assign E dbg vars d')) parse splitter dbg s w = eval (to_ctx E (assign E dbg vars d)) parse splitter dbg s w.
Proof.
  intros V W n L rnd docs E dbg cf d d' H H' vars parse sp s w Hs.
  destruct (checked_inv n L rnd docs E dbg cf d H) as (p & e & Hp & He & D). destruct (checked_inv _ L rnd docs E dbg cf d' H') as (p' & e' & Hp' & He' & D').
  change (n_from_f64 (newtype_num n)) with (n_from_f64 n) in Hp', He'. assert (p' = p) by congruence. assert (e' = e) by congruence. subst p' e'.
  assert (T : twin d' d) by (subst; repeat split). destruct (assign_twin V W E dbg vars d' d T) as ((T1 & T2 & T3) & F1 & F2 & F3).
  assert (T' : twin d d') by (subst; repeat split). destruct (assign_twin V W E dbg vars d d' T') as (_ & G1 & G2 & G3).
  assert (A1 : d_funs d' = d_funs d) by (subst d d'; reflexivity). assert (A3 : d_binary d' = d_binary d) by (subst d d'; reflexivity).
  apply text_shape; unfold to_ctx; cbn [cfg get_variable get_constant get_function get_unary get_binary].
  - exact T3.
  - intros x. rewrite T1. reflexivity.
  - intros x. rewrite T2. reflexivity.
  - intros x. rewrite F1, G1, A1. reflexivity.
  - intros x. rewrite F3, G3, A3. reflexivity.
  - intros x. rewrite F2, G2. subst d d'. unfold ctx_of, checked_uns. cbn [d_unary map]. rewrite !mget_cons.
    change (uf_name (@op_factorial V W (newtype_num n) L)) with (lit "!"). change (uf_name (@op_factorial V W n L)) with (lit "!").
    change (uf_name (@c_neg V W (newtype_num n))) with (uf_name (@c_neg V W n)).
    destruct (key_match E x (lit "!")), (key_match E x (uf_name (@c_neg V W n))), (key_match E x (uf_name (@op_plus V W))); reflexivity.
  - intros _. rewrite F3, G3, A3. reflexivity.
  - intros x Hx. rewrite F1, G1, A1, F2, G2, F3, G3, A3. split; [reflexivity|]. split; [reflexivity|].
    assert (K : key_match E x (lit "!") = false) by (destruct (key_match E x (lit "!")) eqn:K; [|reflexivity]; apply key_match_eq in K; specialize (Hs x Hx); unfold means in Hs; congruence).
    subst d d'. unfold ctx_of, checked_uns. cbn [d_unary map]. rewrite !mget_cons.
    change (uf_name (@op_factorial V W (newtype_num n) L)) with (lit "!"). change (uf_name (@op_factorial V W n L)) with (lit "!"). rewrite K. reflexivity.
Qed.
Print Assumptions C64_checked_same.

(** In an unchecked context so is everything but [!] and the binary [-] (a word [-] may also be the sign, which is right; at the level
    of texts the words are excluded altogether). *)
Theorem C64_unchecked_same : forall V W (n : num V) L (rnd : W -> f64 * W) E dbg cf d d',
  unchecked_context n L rnd E dbg cf = Ok d -> unchecked_context (newtype_num n) L rnd E dbg cf = Ok d' ->
  forall vars parse splitter s w, (forall x, In x (splitter s) -> means E x "!" = false /\ means E x "-" = false) ->
  eval (to_ctx E (assign E dbg vars d')) parse splitter dbg s w = eval (to_ctx E (assign E dbg vars d)) parse splitter dbg s w.
Proof.
  intros V W n L rnd E dbg cf d d' H H' vars parse sp s w Hs.
  destruct (unchecked_inv n L rnd E dbg cf d H) as (p & e & Hp & He & D). destruct (unchecked_inv _ L rnd E dbg cf d' H') as (p' & e' & Hp' & He' & D').
  change (n_from_f64 (newtype_num n)) with (n_from_f64 n) in Hp', He'. assert (p' = p) by congruence. assert (e' = e) by congruence. subst p' e'.
  assert (T : twin d' d) by (subst; repeat split). destruct (assign_twin V W E dbg vars d' d T) as ((T1 & T2 & T3) & F1 & F2 & F3).
  assert (T' : twin d d') by (subst; repeat split). destruct (assign_twin V W E dbg vars d d' T') as (_ & G1 & G2 & G3).
  assert (A1 : d_funs d' = d_funs d) by (subst d d'; reflexivity).
  assert (NB : forall i f, nth_error (@unchecked_bins V W (newtype_num n) L) i = Some f -> i <> 1%nat -> nth_error (@unchecked_bins V W n L) i = Some f).
  { intros i f. do 6 (destruct i as [|i]; [intros Hf Hi; try congruence; exact Hf|]). destruct i; discriminate. }
  assert (B : forall x, (means E x "-" = false -> mget (key_match E) (d_binary d') x = mget (key_match E) (d_binary d) x) /\
                        is_some (mget (key_match E) (d_binary d') x) = is_some (mget (key_match E) (d_binary d) x)).
  { intros x. subst d d'. unfold ctx_of, unchecked_bins. cbn [d_binary map]. rewrite !mget_cons.
    change (bf_name (@u_sub V W (newtype_num n))) with (lit "-"). change (bf_name (@u_sub V W n)) with (lit "-").
    change (@u_add V W (newtype_num n)) with (@u_add V W n). change (@u_mul V W (newtype_num n)) with (@u_mul V W n).
    change (@u_div V W (newtype_num n)) with (@u_div V W n). change (@op_pow V W (newtype_num n) L) with (@op_pow V W n L).
    change (@u_mod V W (newtype_num n)) with (@u_mod V W n). split.
    - intros M. replace (key_match E x (lit "-")) with false; [reflexivity|].
      symmetry. destruct (key_match E x (lit "-")) eqn:K; [|reflexivity]. apply key_match_eq in K. unfold means in M. congruence.
    - destruct (key_match E x (bf_name (@u_add V W n))); [reflexivity|]. destruct (key_match E x (lit "-")); reflexivity. }
  assert (TM : mget (key_match E) (d_binary d') times = mget (key_match E) (d_binary d) times).
  { subst d d'. unfold ctx_of, unchecked_bins. cbn [d_binary map]. rewrite !mget_cons.
    change (bf_name (@u_sub V W (newtype_num n))) with (lit "-"). change (bf_name (@u_sub V W n)) with (lit "-").
    rewrite (key_match_ascii E times (lit "-")); [reflexivity| |]; repeat constructor. }
  apply text_shape; unfold to_ctx; cbn [cfg get_variable get_constant get_function get_unary get_binary].
  - exact T3.
  - intros x. rewrite T1. reflexivity.
  - intros x. rewrite T2. reflexivity.
  - intros x. rewrite F1, G1, A1. reflexivity.
  - intros x. rewrite F3, G3. apply B.
  - intros x. rewrite F2, G2. subst d d'. unfold ctx_of, unchecked_uns. cbn [d_unary map]. rewrite !mget_cons.
    change (uf_name (@op_factorial V W (newtype_num n) L)) with (lit "!"). change (uf_name (@op_factorial V W n L)) with (lit "!").
    change (uf_name (@u_neg V W (newtype_num n))) with (uf_name (@u_neg V W n)).
    destruct (key_match E x (lit "!")), (key_match E x (uf_name (@u_neg V W n))), (key_match E x (uf_name (@op_plus V W))); reflexivity.
  - intros _. rewrite F3, G3. exact TM.
  - intros x Hx. rewrite F1, G1, A1, F2, G2, F3, G3. destruct (Hs x Hx) as [M1 M2]. split; [reflexivity|]. split; [apply B; exact M2|].
    assert (K : key_match E x (lit "!") = false) by (destruct (key_match E x (lit "!")) eqn:K; [|reflexivity]; apply key_match_eq in K; unfold means in M1; congruence).
    subst d d'. unfold ctx_of, unchecked_uns. cbn [d_unary map]. rewrite !mget_cons.
    change (uf_name (@op_factorial V W (newtype_num n) L)) with (lit "!"). change (uf_name (@op_factorial V W n L)) with (lit "!"). rewrite K. reflexivity.
Qed.
Print Assumptions C64_unchecked_same.

(** The unchecked [-] adds: of no two numbers whose sum and difference fit and differ is it the difference. *)
Theorem C64_subtraction_refuted : forall W t dbg L (rnd : W -> f64 * W) E cf d,
  unchecked_context (newtype_num (int_num t dbg)) L rnd E dbg cf = Ok d -> forall x y w, fits t (x + y) ->
  apply_binary (to_ctx E d) (lit "-") x y w = (Ok (x + y), w) /\ (y <> 0 -> apply_binary (to_ctx E d) (lit "-") x y w <> (Ok (x - y), w)).
Proof.
  intros W t dbg L rnd E cf d H x y w F. assert (A : apply_binary (to_ctx E d) (lit "-") x y w = (Ok (x + y), w)).
  { unfold apply_binary. rewrite (unchecked_bin _ L rnd E dbg cf d 1 _ (lit "-") H eq_refl (alike_refl _)). cbn. unfold lift, raw.
    apply fits_range in F. rewrite F. reflexivity. }
  split; [exact A|]. rewrite A. intros Hy K. injection K. lia.
Qed.
Print Assumptions C64_subtraction_refuted.

(** [n!] of a number from 2 on never gives a number in a debug build, checked or unchecked: the loop counts up until it overflows. *)
Lemma newtype_loop : forall t fuel total next, 1 <= total -> 1 <= next -> fits t next -> (Z.to_nat (imax t - next) < fuel)%nat ->
  fact_loop (newtype_num (int_num t true)) fuel total next = Some Panic.
Proof.
  intros t fuel. induction fuel as [|fuel IH]; intros total next H1 H2 F Hf; [lia|]. cbn [fact_loop newtype_num n_mul n_sub n_one n_add int_num].
  replace (n_ge (newtype_num (int_num t true)) next 1) with true by (unfold n_ge; cbn; destruct (next ?= 1) eqn:C; [reflexivity|rewrite Z.compare_lt_iff in C; lia|reflexivity]).
  unfold raw. destruct (in_range t (total * next)); [|reflexivity]. destruct (in_range t (next + 1)) eqn:R; [|reflexivity].
  assert (R' := proj1 (fits_range _ _) R). assert (next + 1 <= imax t) by (unfold in_range in R; apply andb_true_iff in R; destruct R as [_ R]; apply Z.leb_le; exact R).
  apply IH; [nia|lia|exact R'|lia].
Qed.
Theorem C64_factorial_refuted : forall W t L (rnd : W -> f64 * W) docs E cf d,
  checked_context (newtype_num (int_num t true)) L rnd docs E true cf = Ok d \/ unchecked_context (newtype_num (int_num t true)) L rnd E true cf = Ok d ->
  forall z, fits t z -> 2 <= z ->
  (exists k, forall fuel, (k <= fuel)%nat -> factorial (newtype_num (int_num t true)) L fuel z = Some Panic) /\
  (forall w, apply_unary (to_ctx E d) (lit "!") z w = (Panic, w)).
Proof.
  intros W t L rnd docs E cf d H z F Hz.
  assert (G : forall fuel, (Z.to_nat (imax t) < fuel)%nat -> factorial (newtype_num (int_num t true)) L fuel z = Some Panic).
  { intros fuel Hf. unfold factorial, n_lt. cbn [newtype_num int_num n_cmp n_zero n_one n_is_zero n_is_one n_sub n_add].
    assert (C0 : (z ?= 0) = Gt) by (apply Z.compare_gt_iff; lia). assert (C1 : (z ?= 1) = Gt) by (apply Z.compare_gt_iff; lia).
    rewrite C0, C1. replace (z =? 0) with false by (symmetry; apply Z.eqb_neq; lia). cbn [orb]. unfold raw. destruct (in_range t (z + 1)) eqn:R; [|reflexivity].
    rewrite newtype_loop; [reflexivity|lia|lia|apply fits_range; exact R|lia]. }
  split; [exists (S (Z.to_nat (imax t))); intros fuel Hf; apply G; lia|]. intros w.
  assert (A : apply_unary (to_ctx E d) (lit "!") z w = uf_call (op_factorial (newtype_num (int_num t true)) L) z w).
  { unfold apply_unary. destruct H as [H|H].
    - rewrite (checked_un _ L rnd docs E true cf d 2 _ (lit "!") H eq_refl (alike_refl _)). reflexivity.
    - rewrite (unchecked_un _ L rnd E true cf d 2 _ (lit "!") H eq_refl (alike_refl _)). reflexivity. }
  rewrite A. unfold op_factorial, unop, lift. cbn [uf_call].
  assert (M : forall f1 f2 r, factorial (newtype_num (int_num t true)) L f1 z = Some r -> (f1 <= f2)%nat -> factorial (newtype_num (int_num t true)) L f2 z = Some r).
  { intros f1 f2 r. unfold factorial. destruct (n_lt _ z _); [auto|]. destruct (_ || _); [auto|]. destruct (n_lt _ z _); [auto|]. destruct (n_sub _ z _) as [m| |]; auto.
    intros Q Hf. assert (LM : forall f tot nx q, fact_loop (newtype_num (int_num t true)) f tot nx = Some q -> forall f', (f <= f')%nat -> fact_loop (newtype_num (int_num t true)) f' tot nx = Some q).
    { clear. induction f as [|f IH]; intros tot nx q Q f' Hf.
      - cbn [fact_loop] in Q. destruct (n_ge _ nx _) eqn:Gq; [discriminate|]. destruct f'; cbn [fact_loop]; rewrite Gq; exact Q.
      - cbn [fact_loop] in Q. destruct f' as [|f']; [lia|]. cbn [fact_loop]. destruct (n_ge _ nx _); [|exact Q].
        destruct (n_mul _ tot nx) as [tot'| |]; auto. destruct (n_sub _ nx _) as [nx'| |]; auto. apply (IH _ _ _ Q). lia. }
    destruct (fact_loop _ f1 z m) as [q|] eqn:Q1; [|discriminate]. rewrite (LM _ _ _ _ Q1 f2 Hf). exact Q. }
  destruct (factorial _ L (n_fuel _ z) z) as [r|] eqn:Q; [|reflexivity].
  set (f1 := n_fuel (newtype_num (int_num t true)) z) in *.
  pose proof (M f1 (f1 + S (Z.to_nat (imax t)))%nat r Q ltac:(lia)) as Q2. rewrite (G (f1 + S (Z.to_nat (imax t)))%nat ltac:(lia)) in Q2. injection Q2 as <-. reflexivity.
Qed.
Print Assumptions C64_factorial_refuted.

(** Below 2 it is right, in every build: 0! = 1! = 1, and a negative number is refused. *)
Theorem C64_small_factorials : forall W t dbg L (rnd : W -> f64 * W) docs E cf d,
  checked_context (newtype_num (int_num t dbg)) L rnd docs E dbg cf = Ok d \/ unchecked_context (newtype_num (int_num t dbg)) L rnd E dbg cf = Ok d ->
  forall z w, z < 2 -> apply_unary (to_ctx E d) (lit "!") z w = (if z <? 0 then Err NegativeValue else Ok 1, w).
Proof.
  intros W t dbg L rnd docs E cf d H z w Hz.
  assert (A : apply_unary (to_ctx E d) (lit "!") z w = uf_call (op_factorial (newtype_num (int_num t dbg)) L) z w).
  { unfold apply_unary. destruct H as [H|H].
    - rewrite (checked_un _ L rnd docs E dbg cf d 2 _ (lit "!") H eq_refl (alike_refl _)). reflexivity.
    - rewrite (unchecked_un _ L rnd E dbg cf d 2 _ (lit "!") H eq_refl (alike_refl _)). reflexivity. }
  rewrite A. unfold op_factorial, unop, lift. cbn [uf_call]. unfold factorial, n_lt. cbn [newtype_num int_num n_cmp n_zero n_one n_is_zero n_is_one n_sub n_add].
  destruct (Z.ltb_spec z 0) as [C|C].
  - rewrite (proj2 (Z.compare_lt_iff z 0) C). reflexivity.
  - assert (z = 0 \/ z = 1) as [-> | ->] by lia; reflexivity.
Qed.
Print Assumptions C64_small_factorials.

(** The contexts can be built; [7 - 2 * 3] and [3 - 2] over a newtype of [i64]. *)
Definition nt : num Z := newtype_num (int_num i64 true).
Example C64_case : exists d d' u, checked_context (int_num i64 true) no_libm no_random true std_env true plain_config = Ok d /\
  checked_context nt no_libm no_random true std_env true plain_config = Ok d' /\ unchecked_context nt no_libm no_random std_env true plain_config = Ok u /\
  (forall x, In x (split_into_tokens default_splitter (lit "7 - 2 * x")) -> means std_env x "!" = false) /\
  eval (to_ctx std_env (assign std_env true [(lit "x", 3)] d')) (parse_int i64) (split_into_tokens default_splitter) true (lit "7 - 2 * x") tt = (Ok 1, tt) /\
  eval (to_ctx std_env u) (parse_int i64) (split_into_tokens default_splitter) true (lit "3 - 2") tt = (Ok 5, tt).
Proof.
  pose proof (checked_is (int_num i64 true) no_libm no_random true std_env true 3 2 eq_refl eq_refl plain_config) as H1.
  pose proof (checked_is nt no_libm no_random true std_env true 3 2 eq_refl eq_refl plain_config) as H2.
  pose proof (unchecked_is nt no_libm no_random std_env true 3 2 eq_refl eq_refl plain_config) as H3.
  eexists. eexists. eexists. split; [exact H1|]. split; [exact H2|]. split; [exact H3|]. split; [|split; vm_compute; reflexivity].
  assert (X : forallb (fun x => negb (means std_env x "!")) (split_into_tokens default_splitter (lit "7 - 2 * x")) = true) by (vm_compute; reflexivity).
  intros x Hx. rewrite forallb_forall in X. specialize (X x Hx). apply negb_true_iff in X. exact X.
Qed.
