(** * C82: the checked and the unchecked context compared *)
From Coq Require Import List NArith ZArith QArith Qabs Bool Arith Lia Lqa String.
From Verif Require Import ModelBase ModelContext ModelEvaluator ModelText ModelStr ModelSplit ModelTokenizer ModelDefault ModelFloat ModelNum ModelOps ModelParse ModelStd
  SpecText SpecExpr SpecOps SpecCompare ProofText ProofDefault ProofBuild ProofCtx ProofOps ProofOps2 ProofOps3 ProofTokens2 ProofCompare PropOps.
From Verif Require SpecRound ProofRound2 ProofDouble2.
Import ListNotations.
Local Open Scope string_scope.
Local Open Scope list_scope.

(** ** What is assumed of the number type *)

(** The checked operation gives the value of the plain one, or nothing (which must be [excused]). *)
Definition agree {V} (excused : Prop) (o : option V) (r : res V) : Prop := match o with Some z => r = Ok z | None => excused end.
Record comparable {V} (excused : Prop) (n : num V) : Prop := Comparable {
  c_adds : forall x y, agree excused (n_cadd n x y) (n_add n x y);
  c_subs : forall x y, agree excused (n_csub n x y) (n_sub n x y);
  c_muls : forall x y, agree excused (n_cmul n x y) (n_mul n x y);
  c_divs : forall x y, n_is_zero n y = false -> agree excused (n_cdiv n x y) (n_div n x y);
  c_rems : forall x y, n_is_zero n y = false -> agree excused (n_crem n x y) (n_rem n x y);
  c_negs : forall x, agree excused (n_cneg n x) (n_neg n x);
  c_avgs : forall x k z, n_from_usize n (S k) = Some z -> agree excused (n_cdiv n x z) (n_div n x z) }.

(** The functions of the checked context that the unchecked one lacks, and [set_variable] called for each of a list of names and values. *)
Definition missing (docs : bool) : list string :=
  ["abs"; "floor"; "ceil"; "round"; (if docs then "trunc" else "truncate"); (if docs then "signum" else "sign")].
Definition names_missing E docs (word : str) : Prop := exists name, In name (missing docs) /\ eq_ignore_case E word (lit name) = true.
Definition assign {V W} E dbg (vs : list (str * V)) (d : dctx V W) : dctx V W := fold_left (fun d p => snd (set_variable E dbg (fst p) (snd p) d)) vs d.

(** ** Proofs *)
Lemma agree_over : forall V W (excused : Prop) (o : option V) (r : res V), agree excused o r -> same_outcome excused (lift (W := W) (or_overflow o)) (lift r).
Proof. intros V W ex [z|] r H w; cbn in H; [subst; right; reflexivity|left; split; [exact H|reflexivity]]. Qed.

Section Pair.
Context {V W : Type}.
Variable excused : Prop.
Variable n : num V.
Variable L : libm.
Variable random : W -> f64 * W.
Variable docs : bool.
Variable E : env.
Hypothesis Hn : comparable excused n.
Notation same := (same_outcome excused).

Lemma fold_same : forall (f : V -> V -> option V) (g : V -> V -> res V), (forall x y, agree excused (f x y) (g x y)) -> forall args acc,
  (excused /\ fold_args (fun a x => or_overflow (f a x)) acc args = Err Overflow) \/ fold_args g acc args = fold_args (fun a x => or_overflow (f a x)) acc args.
Proof.
  intros f g H args. induction args as [|x args IH]; intros acc; cbn [fold_args]; [right; reflexivity|]. destruct acc as [a|]; [|apply IH].
  pose proof (H a x) as A. destruct (f a x) as [z|]; cbn in A |- *; [rewrite A; apply IH|left; split; [exact A|reflexivity]].
Qed.
Lemma same_sum : forall args, same (fn_call (c_sum (W := W) n) args) (fn_call (u_sum n) args).
Proof.
  intros args w. cbn. unfold lift. destruct (fold_same _ _ (c_adds _ _ Hn) args None) as [[e ->]| ->]; [left; auto|right; reflexivity].
Qed.
Lemma same_prod : forall args, same (fn_call (c_prod (W := W) n) args) (fn_call (u_prod n) args).
Proof.
  intros args w. cbn. unfold lift. destruct (fold_same _ _ (c_muls _ _ Hn) args None) as [[e ->]| ->]; [left; auto|right; reflexivity].
Qed.
Lemma same_avg : forall args, same (fn_call (c_avg (W := W) n) args) (fn_call (u_avg n) args).
Proof.
  intros args w. destruct args as [|x args]; [right; reflexivity|]. cbn [c_avg u_avg fun_ fn_call]. unfold lift.
  destruct (fold_same _ _ (c_adds _ _ Hn) (x :: args) None) as [[e ->]| ->]; [left; auto|].
  destruct (fold_args (fun a y => or_overflow (n_cadd n a y)) None (x :: args)) as [[v|]| |]; cbn [rbind]; try (right; reflexivity).
  cbn [List.length]. destruct (n_from_usize n (S (List.length args))) as [z|] eqn:K; [|right; reflexivity].
  pose proof (c_avgs _ _ Hn v (List.length args) z K) as A. destruct (n_cdiv n v z); cbn in A |- *; [rewrite A; right; reflexivity|left; auto].
Qed.

(** Operators: the two lists agree place by place. *)
Definition brel (f g : bfunc V W) : Prop := bf_name f = bf_name g /\ bf_prec f = bf_prec g /\ bf_assoc f = bf_assoc g /\ forall x y, same (bf_call f x y) (bf_call g x y).
Definition urel (f g : ufunc V W) : Prop := uf_name f = uf_name g /\ uf_notation f = uf_notation g /\ forall x, same (uf_call f x) (uf_call g x).
Lemma bins_rel : Forall2 brel (checked_bins n L) (unchecked_bins n L).
Proof.
  unfold checked_bins, unchecked_bins. repeat apply Forall2_cons; try apply Forall2_nil; (split; [reflexivity|split; [reflexivity|split; [reflexivity|]]]); intros x y; cbn [c_add u_add c_sub u_sub c_mul u_mul c_div u_div c_mod u_mod binop bf_call].
  - apply agree_over, Hn.
  - apply agree_over, Hn.
  - apply agree_over, Hn.
  - destruct (n_is_zero n y) eqn:Z; [intros w; right; reflexivity|apply agree_over, Hn, Z].
  - intros w; right; reflexivity.
  - destruct (n_is_zero n y) eqn:Z; [intros w; right; reflexivity|apply agree_over, Hn, Z].
Qed.
Lemma uns_rel : Forall2 urel (checked_uns n L) (unchecked_uns n L).
Proof.
  unfold checked_uns, unchecked_uns. repeat apply Forall2_cons; try apply Forall2_nil; (split; [reflexivity|split; [reflexivity|]]); intros x.
  - intros w; right; reflexivity.
  - apply agree_over, Hn.
  - intros w; right; reflexivity.
Qed.
Lemma bins_found : forall l l' q, Forall2 brel l l' -> bless excused (mget (key_match E) (map (fun f => (bf_name f, f)) l) q) (mget (key_match E) (map (fun f => (bf_name f, f)) l') q).
Proof.
  intros l l' q H. induction H as [|f g l l' (N & P & A & C) H IH]; [exact I|]. cbn [map]. rewrite !mget_cons, <- N. destruct (key_match E q (bf_name f)); [|exact IH]. cbn. auto.
Qed.
Lemma uns_found : forall l l' q, Forall2 urel l l' -> uless excused (mget (key_match E) (map (fun f => (uf_name f, f)) l) q) (mget (key_match E) (map (fun f => (uf_name f, f)) l') q).
Proof.
  intros l l' q H. induction H as [|f g l l' (N & P & C) H IH]; [exact I|]. cbn [map]. rewrite !mget_cons, <- N. destruct (key_match E q (uf_name f)); [|exact IH]. cbn. auto.
Qed.

(** Functions. *)
Lemma mget_found : forall A (m : list (str * A)) q k f, names_ok m = true -> In (k, f) m -> key_match E q k = true -> mget (key_match E) m q = Some f.
Proof.
  intros A m q k f Hm Hin Hk. induction m as [|[k0 f0] m IH]; [destruct Hin|]. rewrite mget_cons. change ((k0, f0) :: m) with ([(k0, f0)] ++ m) in Hm.
  destruct (names_app E _ _ _ Hm) as (H0 & H1 & Hd). destruct Hin as [e|Hin]; [injection e as -> ->; rewrite Hk; reflexivity|].
  destruct (key_match E q k0) eqn:K0; [|apply IH; assumption]. exfalso.
  assert (N0 : nameb k0 = true) by (unfold names_ok, namesb in H0; cbn in H0; rewrite !andb_true_r in H0; exact H0).
  assert (N1 : nameb k = true). { unfold names_ok, namesb in H1. apply andb_true_iff in H1. destruct H1 as [H1 _]. rewrite forallb_forall in H1. apply H1. apply in_map with (f := fst) in Hin. exact Hin. }
  assert (D : key_match E k k0 = false) by (apply Hd; [left; reflexivity|apply in_map with (f := fst) in Hin; exact Hin]).
  apply key_match_eq in Hk, K0. rewrite eq_ic_sym in Hk. pose proof (eq_ic_trans _ _ _ _ Hk K0) as T.
  rewrite key_match_ascii in D by (apply nameb_ascii; assumption). congruence.
Qed.
Definition frel (f g : func V W) : Prop := fn_name f = fn_name g /\ forall args, same (fn_call f args) (fn_call g args).
Lemma frel_refl : forall f, frel f f.
Proof. intros f. split; [reflexivity|intros args w; right; reflexivity]. Qed.
Lemma funs_rel : forall f, In f (checked_funs n L random docs) -> (exists name, In name (missing docs) /\ fn_name f = lit name) \/ exists g, In g (unchecked_funs n L random) /\ frel f g.
Proof.
  intros f Hf. unfold checked_funs in Hf. apply in_app_or in Hf. unfold unchecked_funs. destruct Hf as [Hf|Hf].
  - cbn [In] in Hf.
    repeat (destruct Hf as [<-|Hf]; [first
      [ left; exists "abs"; split; [unfold missing; cbn [In]; auto 9|reflexivity]
      | left; exists "floor"; split; [unfold missing; cbn [In]; auto 9|reflexivity]
      | left; exists "ceil"; split; [unfold missing; cbn [In]; auto 9|reflexivity]
      | left; exists "round"; split; [unfold missing; cbn [In]; auto 9|reflexivity]
      | left; exists (if docs then "trunc" else "truncate"); split; [unfold missing; cbn [In]; auto 9|reflexivity]
      | left; exists (if docs then "signum" else "sign"); split; [unfold missing; cbn [In]; auto 9|reflexivity]
      | right; exists (u_sum n); split; [apply in_or_app; left; cbn [In]; auto 13|split; [reflexivity|apply same_sum]]
      | right; exists (u_prod n); split; [apply in_or_app; left; cbn [In]; auto 13|split; [reflexivity|apply same_prod]]
      | right; exists (u_avg n); split; [apply in_or_app; left; cbn [In]; auto 13|split; [reflexivity|apply same_avg]]
      | match goal with |- context [fn_name ?f] => right; exists f; split; [apply in_or_app; left; cbn [In]; auto 13|apply frel_refl] end ]|]). destruct Hf.
  - right. exists f. split; [apply in_or_app; right; exact Hf|apply frel_refl].
Qed.
Lemma funs_back : forall g, In g (unchecked_funs n L random) -> exists f, In f (checked_funs n L random docs) /\ fn_name f = fn_name g.
Proof.
  intros g Hg. unfold unchecked_funs in Hg. apply in_app_or in Hg. unfold checked_funs. destruct Hg as [Hg|Hg].
  - cbn [In] in Hg. repeat (destruct Hg as [<-|Hg]; [first
      [ exists (c_sum n); split; [apply in_or_app; left; cbn [In]; auto 20|reflexivity]; fail
      | exists (c_prod n); split; [apply in_or_app; left; cbn [In]; auto 20|reflexivity]; fail
      | exists (c_avg n); split; [apply in_or_app; left; cbn [In]; auto 20|reflexivity]; fail
      | match goal with |- exists f, _ /\ fn_name f = fn_name ?g => exists g; split; [apply in_or_app; left; cbn [In]; auto 20|reflexivity] end ]|]). destruct Hg.
  - exists g. split; [apply in_or_app; right; exact Hg|reflexivity].
Qed.
Lemma checked_names_ok : names_ok (map (fun f => (fn_name f, f)) (checked_funs n L random docs)) = true.
Proof. clear. unfold checked_funs. destruct docs; vm_compute; reflexivity. Qed.
Lemma unchecked_names_ok : names_ok (map (fun f => (fn_name f, f)) (unchecked_funs n L random)) = true.
Proof. clear. vm_compute. reflexivity. Qed.
Lemma funs_found : forall q, ~ names_missing E docs q ->
  fless excused (mget (key_match E) (map (fun f => (fn_name f, f)) (checked_funs n L random docs)) q) (mget (key_match E) (map (fun f => (fn_name f, f)) (unchecked_funs n L random)) q).
Proof.
  intros q Hq. destruct (mget (key_match E) (map (fun f => (fn_name f, f)) (checked_funs n L random docs)) q) as [f|] eqn:F.
  - apply mget_some in F. destruct F as (k & Hin & Hk). apply in_map_iff in Hin. destruct Hin as (f' & e & Hin). injection e as <- ->.
    destruct (funs_rel f Hin) as [(name & Hm & Hnm)|(g & Hg & N & C)].
    + exfalso. apply Hq. exists name. split; [exact Hm|]. rewrite <- Hnm. apply key_match_eq. exact Hk.
    + rewrite (mget_found _ _ q (fn_name g) g unchecked_names_ok); [exact C| |rewrite <- N; exact Hk]. apply in_map_iff. exists g. auto.
  - destruct (mget (key_match E) (map (fun f => (fn_name f, f)) (unchecked_funs n L random)) q) as [g|] eqn:G; [|exact I]. exfalso.
    apply mget_some in G. destruct G as (k & Hin & Hk). apply in_map_iff in Hin. destruct Hin as (g' & e & Hin). injection e as <- ->.
    destruct (funs_back g Hin) as (f & Hf & N). rewrite (mget_found _ _ q (fn_name f) f checked_names_ok) in F; [discriminate| |rewrite N; exact Hk]. apply in_map_iff. exists f. auto.
Qed.
End Pair.

(** Setting variables changes the variables alone, and alike in contexts with the same constants. *)
Lemma assign_is : forall V W E dbg vs (d : dctx V W), assign E dbg vs d =
  DCtx (d_vars (assign E dbg vs d)) (d_consts d) (d_funs d) (d_unary d) (d_binary d) (d_config d).
Proof.
  intros V W E dbg vs. induction vs as [|[x v] vs IH]; intros d; cbn [assign fold_left]; [destruct d; reflexivity|].
  change (assign E dbg vs (snd (set_variable E dbg x v d)) = DCtx (d_vars (assign E dbg vs (snd (set_variable E dbg x v d)))) (d_consts d) (d_funs d) (d_unary d) (d_binary d) (d_config d)).
  rewrite IH. unfold set_variable. destruct (validate dbg x); [destruct (existsb _ _)| |]; reflexivity.
Qed.
Lemma assign_vars : forall V W E dbg vs (d d' : dctx V W), d_vars d = d_vars d' -> d_consts d = d_consts d' -> d_vars (assign E dbg vs d) = d_vars (assign E dbg vs d').
Proof.
  intros V W E dbg vs. induction vs as [|[x v] vs IH]; intros d d' Hv Hc; cbn [assign fold_left]; [exact Hv|].
  change (d_vars (assign E dbg vs (snd (set_variable E dbg x v d))) = d_vars (assign E dbg vs (snd (set_variable E dbg x v d')))). cbn [fst snd].
  apply IH; unfold set_variable; rewrite Hc; destruct (validate dbg x); try destruct (existsb _ _); cbn; congruence.
Qed.

Section Main.
Context {V W : Type}.
Variables (excused : Prop) (n : num V) (L : libm) (random : W -> f64 * W) (docs : bool) (E : env) (dbg : bool) (cf : config) (d u : dctx V W).
Hypothesis Hn : comparable excused n.
Hypothesis Hd : checked_context n L random docs E dbg cf = Ok d.
Hypothesis Hu : unchecked_context n L random E dbg cf = Ok u.
Variable vs : list (str * V).
Notation c := (to_ctx E (assign E dbg vs d)).
Notation c' := (to_ctx E (assign E dbg vs u)).
Lemma facts : cfg c = cfg c' /\ (forall x, get_variable c x = get_variable c' x) /\ (forall x, get_constant c x = get_constant c' x) /\
  (forall x, bless excused (get_binary c x) (get_binary c' x)) /\ (forall x, uless excused (get_unary c x) (get_unary c' x)) /\
  (forall x, ~ names_missing E docs x -> shared excused c c' x).
Proof.
  destruct (ProofCtx.checked_inv n L random docs E dbg cf d Hd) as (p & e & Hp & He & D). destruct (ProofCtx.unchecked_inv n L random E dbg cf u Hu) as (p' & e' & Hp' & He' & U).
  rewrite Hp' in Hp. injection Hp as ->. rewrite He' in He. injection He as ->.
  rewrite (assign_is _ _ E dbg vs d), (assign_is _ _ E dbg vs u), (assign_vars _ _ E dbg vs d u) by (subst; reflexivity). unfold to_ctx. cbn [cfg get_variable get_constant get_binary get_unary].
  split; [subst; reflexivity|]. split; [reflexivity|]. split; [intros x; subst; reflexivity|].
  split; [intros x; subst; apply bins_found, bins_rel, Hn|]. split; [intros x; subst; apply uns_found, uns_rel, Hn|].
  intros x Hx. unfold shared. cbn [get_function]. subst d u. apply funs_found; assumption.
Qed.
End Main.

(** ** The property *)

(** Any expression: unless the checked context reports [Overflow], the unchecked one gives the same outcome, be it a value,
    an error or a panic. No word of the expression may name one of the functions the unchecked context lacks. *)
Theorem C82_text : forall V W (excused : Prop) (n : num V) L (rnd : W -> f64 * W) docs E dbg cf d u, comparable excused n ->
  checked_context n L rnd docs E dbg cf = Ok d -> unchecked_context n L rnd E dbg cf = Ok u ->
  forall vs parse splitter s, (forall word, In word (splitter s) -> ~ names_missing E docs word) ->
  same_outcome excused (eval (to_ctx E (assign E dbg vs d)) parse splitter dbg s) (eval (to_ctx E (assign E dbg vs u)) parse splitter dbg s).
Proof.
  intros V W ex n L rnd docs E dbg cf d u Hn Hd Hu vs parse splitter s Hs.
  destruct (facts ex n L rnd docs E dbg cf d u Hn Hd Hu vs) as (H1 & H2 & H3 & H4 & H5 & H6). apply text_same; auto.
  apply Forall_forall. intros x Hx. apply H6, Hs, Hx.
Qed.
Print Assumptions C82_text.
Theorem C82_tokens : forall V W (excused : Prop) (n : num V) L (rnd : W -> f64 * W) docs E dbg cf d u, comparable excused n ->
  checked_context n L rnd docs E dbg cf = Ok d -> unchecked_context n L rnd E dbg cf = Ok u ->
  forall vs toks, (forall f, In (TFunction f) toks -> ~ names_missing E docs f) ->
  same_outcome excused (eval_tokens (to_ctx E (assign E dbg vs d)) dbg toks) (eval_tokens (to_ctx E (assign E dbg vs u)) dbg toks).
Proof.
  intros V W ex n L rnd docs E dbg cf d u Hn Hd Hu vs toks Hs.
  destruct (facts ex n L rnd docs E dbg cf d u Hn Hd Hu vs) as (H1 & H2 & H3 & H4 & H5 & H6). apply tokens_same; auto.
  apply Forall_forall. intros [] Hx; try exact I. apply H6, Hs, Hx.
Qed.
Print Assumptions C82_tokens.

(** Integers of any width: the excuse is an overflow. Doubles: none, the two contexts give the same always. *)
Theorem C82_integers : forall t dbg, comparable True (int_num t dbg).
Proof.
  intros t dbg. constructor; cbn [int_num n_cadd n_add n_csub n_sub n_cmul n_mul n_cdiv n_div n_crem n_rem n_cneg n_neg n_is_zero n_from_usize]; unfold agree, checked_div, checked_rem, checked, raw, raw_div, raw_rem;
    intros; repeat match goal with |- context [if ?b then _ else _] => destruct b end; auto.
Qed.
Print Assumptions C82_integers.
Lemma from_usize_nonzero : forall k, f_is_zero (f_of_Z (Z.of_nat (S k))) = false.
Proof.
  intros k. pose proof (ProofRound2.of_Z_rounds (Z.of_nat (S k))) as (A & B & _).
  destruct (Qlt_le_dec (Qabs (inject_Z (Z.of_nat (S k)))) SpecRound.overflow_threshold) as [Q|Q].
  - destruct (A Q) as (p & Hp & Hnear & _). destruct (f_of_Z (Z.of_nat (S k))) as [b|b| |b m e]; try reflexivity. exfalso. cbn in Hp.
    pose proof (Hnear (inject_Z 1) (ProofDouble2.int_double 1 ltac:(cbn; lia))) as D. rewrite Hp in D.
    assert (G : (1 <= inject_Z (Z.of_nat (S k)))%Q) by (rewrite <- (Zle_Qle 1); lia). revert D. rewrite !Qabs_pos by (change (inject_Z 1) with 1%Q; lra). change (inject_Z 1) with 1%Q. lra.
  - rewrite B; [reflexivity|]. rewrite Qabs_pos in Q; [exact Q|]. change 0%Q with (inject_Z 0). rewrite <- Zle_Qle. lia.
Qed.
Theorem C82_doubles : forall fuel, comparable False (f64_num fuel).
Proof.
  intros fuel. constructor; cbn [f64_num n_cadd n_add n_csub n_sub n_cmul n_mul n_cdiv n_div n_crem n_rem n_cneg n_neg n_is_zero n_from_usize]; unfold agree; intros; try reflexivity.
  - rewrite H. reflexivity.
  - rewrite H. reflexivity.
  - assert (Z : f_is_zero z = false) by (replace z with (f_of_Z (Z.of_nat (S k))) by congruence; apply from_usize_nonzero). rewrite Z. reflexivity.
Qed.
Print Assumptions C82_doubles.

(** The same for any integer type, spelt out. *)
Theorem C82_integer_text : forall W t L (rnd : W -> f64 * W) docs E dbg cf d u,
  checked_context (int_num t dbg) L rnd docs E dbg cf = Ok d -> unchecked_context (int_num t dbg) L rnd E dbg cf = Ok u ->
  forall vs parse splitter s w r w', (forall word, In word (splitter s) -> ~ names_missing E docs word) ->
  eval (to_ctx E (assign E dbg vs d)) parse splitter dbg s w = (r, w') -> r <> Err Overflow -> eval (to_ctx E (assign E dbg vs u)) parse splitter dbg s w = (r, w').
Proof.
  intros W t L rnd docs E dbg cf d u Hd Hu vs parse splitter s w r w' Hs He Hr.
  destruct (C82_text Z W True _ L rnd docs E dbg cf d u (C82_integers t dbg) Hd Hu vs parse splitter s Hs w) as [[_ H]|H]; [rewrite He in H; cbn in H; contradiction|rewrite H; exact He].
Qed.
Print Assumptions C82_integer_text.
Theorem C82_double_text : forall W fuel L (rnd : W -> f64 * W) docs E dbg cf d u,
  checked_context (f64_num fuel) L rnd docs E dbg cf = Ok d -> unchecked_context (f64_num fuel) L rnd E dbg cf = Ok u ->
  forall vs parse splitter s w, (forall word, In word (splitter s) -> ~ names_missing E docs word) ->
  eval (to_ctx E (assign E dbg vs u)) parse splitter dbg s w = eval (to_ctx E (assign E dbg vs d)) parse splitter dbg s w.
Proof.
  intros W fuel L rnd docs E dbg cf d u Hd Hu vs parse splitter s w Hs.
  destruct (C82_text f64 W False _ L rnd docs E dbg cf d u (C82_doubles fuel) Hd Hu vs parse splitter s Hs w) as [[[] _]|H]. exact H.
Qed.
Print Assumptions C82_double_text.

(** ** Words that mean nothing *)
Section Unknown.
Context {V W : Type}.
Variable c : ctx V W.
Variable parse : str -> option V.
Definition means_nothing (x : str) : Prop := parse x = None /\ get_variable c x = None /\ get_constant c x = None /\ get_function c x = None /\
  get_unary c x = None /\ get_binary c x = None /\ (2 <= List.length x)%nat.
Lemma byte_len_two : forall x, (2 <= List.length x)%nat -> (byte_len x =? 1)%nat = false.
Proof.
  intros x H. apply Nat.eqb_neq. destruct x as [|a [|b x]]; cbn in H; try lia. change (byte_len (a :: b :: x)) with (List.length (utf8_char a ++ utf8_char b ++ utf8 x)). rewrite !app_length.
  assert (U : forall k, (1 <= List.length (utf8_char k))%nat) by (intros k; unfold utf8_char; repeat destruct (_ <? _)%N; cbn; lia). pose proof (U a). pose proof (U b). lia.
Qed.
Lemma nothing_unknown : forall prev x b, means_nothing x -> classify c parse prev x b = Ok (Some (TUnknown x)).
Proof.
  intros prev x b (H1 & H2 & H3 & H4 & H5 & H6 & H7). unfold classify, is_variable, is_constant, is_function_name, is_binary_function, is_unary_function.
  rewrite H2, H3, H4, H5, H6. cbn [is_some orb]. rewrite byte_len_two by exact H7.
  destruct (str_eqb x (lit ",")) eqn:A; [apply str_eqb_eq in A; subst x; cbn in H7; lia|]. destruct (str_eqb x (lit " ")) eqn:B; [apply str_eqb_eq in B; subst x; cbn in H7; lia|]. reflexivity.
Qed.
Lemma nothing_tokens : forall n raw prev ts x, (List.length raw <= n)%nat -> In x raw -> means_nothing x -> tokenize_loop c parse prev raw = Ok ts -> In (TUnknown x) ts.
Proof.
  induction n as [|n IH]; intros raw prev ts x Hl Hin Hx H; destruct raw as [|y raw]; try (destruct Hin; fail); cbn [List.length] in Hl; [lia|].
  cbn [tokenize_loop] in H. destruct (parse y) as [v|] eqn:P.
  - assert (Hr : In x raw) by (destruct Hin as [->|Hin]; [destruct Hx; congruence|exact Hin]). destruct raw as [|im raw]; [destruct Hr|].
    destruct (complex_number (cfg c) && str_eqb im (lit "i")) eqn:Ci.
    + apply andb_true_iff in Ci. destruct Ci as [_ Ci]. apply str_eqb_eq in Ci. subst im. destruct (parse (y ++ lit "i")); [|discriminate].
      destruct (tokenize_loop c parse (Some (lit "i")) raw) as [ts'| |] eqn:T; try discriminate. injection H as <-. right.
      destruct Hr as [<-|Hr]; [destruct Hx as (_ & _ & _ & _ & _ & _ & Hx); cbn in Hx; lia|]. eapply (IH raw); try eassumption. cbn in Hl. lia.
    + destruct (tokenize_loop c parse (Some y) (im :: raw)) as [ts'| |] eqn:T; try discriminate. injection H as <-. right. eapply (IH (im :: raw)); try eassumption. lia.
  - destruct Hin as [->|Hin].
    + rewrite nothing_unknown in H by exact Hx. cbn [rbind] in H. destruct (tokenize_loop c parse (Some x) raw); try discriminate. injection H as <-. left. reflexivity.
    + destruct (classify c parse prev y _) as [o| |]; try discriminate. cbn [rbind] in H. destruct (tokenize_loop c parse (Some y) raw) as [ts'| |] eqn:T; try discriminate. injection H as <-.
      assert (In (TUnknown x) ts') by (eapply (IH raw); try eassumption; lia). destruct o; [right|]; assumption.
Qed.
Lemma nothing_fails : forall dbg splitter s w x, In x (splitter s) -> means_nothing x -> forall v, fst (eval c parse splitter dbg s w) <> Ok v.
Proof.
  intros dbg splitter s w x Hin Hx v H. unfold eval, tokenize, bind, lift in H. destruct (trim s); [discriminate|].
  destruct (tokenize_loop c parse None (splitter s)) as [ts| |] eqn:T; try discriminate.
  pose proof (nothing_tokens _ _ _ _ x (le_n _) Hin Hx T) as U. unfold eval_tokens, bind, lift in H. destruct (infix_to_rpn c dbg ts) as [rpn| |] eqn:R; try discriminate.
  destruct (infix_conserved c dbg ts rpn R) as (_ & _ & F). rewrite Forall_forall in F. exact (F _ U).
Qed.
End Unknown.
Lemma ic_length : forall E a b, eq_ignore_case E a b = true -> List.length a = List.length b.
Proof. intros E a b H. apply eq_ic in H. apply (f_equal (@List.length _)) in H. rewrite !map_length in H. exact H. Qed.
Lemma ic_clash : forall E q a b, eq_ignore_case E q (lit a) = true -> key_match E q (lit b) = true -> nameb (lit a) = true -> nameb (lit b) = true -> low (lit a) = low (lit b).
Proof.
  intros E q a b Ha Hb Na Nb. apply key_match_eq in Hb. rewrite eq_ic_sym in Ha. pose proof (eq_ic_trans _ _ _ _ Ha Hb) as T.
  apply nameb_ascii in Na, Nb. apply fold_alike. eapply ascii_eq_ic; eassumption.
Qed.

(** An expression with one of the missing functions has no value in the unchecked context (unless a number or a variable is so called). *)
Theorem C82_missing : forall V W (n : num V) L (rnd : W -> f64 * W) docs E dbg cf u, unchecked_context n L rnd E dbg cf = Ok u ->
  forall vs parse splitter s w word, In word (splitter s) -> names_missing E docs word -> parse word = None -> get_variable (to_ctx E (assign E dbg vs u)) word = None ->
  forall v, fst (eval (to_ctx E (assign E dbg vs u)) parse splitter dbg s w) <> Ok v.
Proof.
  intros V W n L rnd docs E dbg cf u Hu vs parse splitter s w word Hin (name & Hm & Hw) Hp Hv. apply (nothing_fails _ _ _ _ _ _ word Hin).
  split; [exact Hp|]. split; [exact Hv|]. clear Hp Hv Hin.
  assert (Nn : nameb (lit name) = true /\ (2 <= List.length (lit name))%nat) by (unfold missing in Hm; cbn [In] in Hm; destruct docs; repeat (destruct Hm as [<-|Hm]; [split; [reflexivity|cbn; lia]|]); destruct Hm).
  destruct Nn as [Nn Ln]. rewrite (assign_is _ _ E dbg vs u). unfold to_ctx. cbn [get_constant get_function get_unary get_binary d_consts d_funs d_unary d_binary].
  destruct (ProofCtx.unchecked_inv n L rnd E dbg cf u Hu) as (p & e & _ & _ & ->). unfold ctx_of. cbn [d_consts d_funs d_unary d_binary].
  assert (No : forall A (m : list (str * A)), forallb nameb (map fst m) = true -> forallb (fun k => negb (str_eqb (low (lit name)) (low k))) (map fst m) = true -> mget (key_match E) m word = None).
  { intros A m Hk Hl. apply mget_none. apply Forall_forall. intros [k a] Hk'. cbn [fst]. destruct (key_match E word k) eqn:K; [exfalso|reflexivity].
    apply in_map with (f := fst) in Hk'. cbn [fst] in Hk'. rewrite forallb_forall in Hk, Hl. apply Hk in Hk' as Nk. apply Hl in Hk'. apply negb_true_iff in Hk'.
    apply key_match_eq in K. rewrite eq_ic_sym in Hw. pose proof (eq_ic_trans _ _ _ _ Hw K) as T. apply nameb_ascii in Nn, Nk.
    assert (low (lit name) = low k) by (apply fold_alike; eapply ascii_eq_ic; eassumption). apply (f_equal (str_eqb (low (lit name)))) in H. rewrite str_eqb_refl in H. congruence. }
  rewrite (ic_length _ _ _ Hw). repeat split; try exact Ln; apply No; try (clear; vm_compute; reflexivity);
    clear -Hm; unfold missing in Hm; cbn [In] in Hm; destruct docs; repeat (destruct Hm as [<-|Hm]; [vm_compute; reflexivity|]); destruct Hm.
Qed.
Print Assumptions C82_missing.

(** ** Aggregates of integers, unchecked *)
Local Open Scope Z_scope.
Lemma fold_release : forall t (op : Z -> Z -> Z) u, 0 < bits t -> (forall a b c, op a (op b c) = op (op a b) c) -> (forall a, op a u = a) ->
  (forall a b, wrap t (op (wrap t a) b) = wrap t (op a b)) -> forall zs a, fits t a ->
  fold_args (fun x y => raw t false (op x y)) (Some a) zs = Ok (Some (wrap t (op a (fold_right op u zs)))).
Proof.
  intros t op u Hb As Un Wr zs. induction zs as [|z zs IH]; intros a Ha; cbn [fold_args fold_right].
  - rewrite Un, wrap_id by assumption. reflexivity.
  - rewrite raw_release by exact Hb. cbn [rbind]. rewrite IH by (apply wrap_spec; exact Hb). rewrite Wr, <- As. reflexivity.
Qed.
Lemma fold_debug : forall t (op : Z -> Z -> Z) zs a, fold_args (fun x y => or_overflow (checked t (op x y))) a zs = Err Overflow ->
  fold_args (fun x y => raw t true (op x y)) a zs = Panic.
Proof.
  intros t op zs. induction zs as [|z zs IH]; intros a H; cbn [fold_args] in *; [discriminate|]. destruct a as [a|]; [|apply IH; exact H].
  unfold raw, checked in *. destruct (in_range t (op a z)); cbn [or_overflow rbind] in *; [apply IH; exact H|reflexivity].
Qed.
Lemma wrap_fits_id : forall t a b, 0 < bits t -> wrap t (wrap t a + b) = wrap t (a + b) /\ wrap t (wrap t a * b) = wrap t (a * b).
Proof.
  intros t a b Hb. split; apply wrap_cong; try exact Hb; destruct (wrap_spec t a Hb) as (_ & k & ->); [exists k|exists (k * b)]; ring.
Qed.

(** Release builds: [sum] and [product] are right modulo the size of the type. Debug builds: they panic as soon as a running total does not fit. *)
Theorem C82_sum_product_release : forall W t L (rnd : W -> f64 * W) E cf u, 0 < bits t -> unchecked_context (int_num t false) L rnd E false cf = Ok u ->
  forall zs w, zs <> [] -> Forall (fits t) zs ->
  (exists r, apply_function (to_ctx E u) (lit "sum") zs w = (r, w) /\ wrapped t (sum_first (List.length zs) zs) r) /\
  (exists r, apply_function (to_ctx E u) (lit "product") zs w = (r, w) /\ wrapped t (product_first (List.length zs) zs) r).
Proof.
  intros W t L rnd E cf u Hb H zs w Hne Hf. rewrite (u_sum_is t false L rnd E cf u H), (u_prod_is t false L rnd E cf u H).
  destruct zs as [|z zs]; [congruence|]. inversion Hf as [|? ? Fz Fzs]; subst. unfold u_sum, u_prod, fun_, lift, sum_first, product_first. rewrite firstn_all. cbn [fn_call fold_args int_num n_add n_mul fold_right].
  rewrite (fold_release t Z.add 0 Hb Z.add_assoc Z.add_0_r (fun a b => proj1 (wrap_fits_id t a b Hb)) zs z Fz).
  rewrite (fold_release t Z.mul 1 Hb Z.mul_assoc Z.mul_1_r (fun a b => proj2 (wrap_fits_id t a b Hb)) zs z Fz).
  cbn [rbind or_no_args]. split; eexists; (split; [reflexivity|]); eexists; (split; [reflexivity|]); apply wrap_spec; exact Hb.
Qed.
Print Assumptions C82_sum_product_release.
Theorem C82_sum_product_debug : forall W t L (rnd : W -> f64 * W) E cf u, unchecked_context (int_num t true) L rnd E true cf = Ok u ->
  forall zs w, zs <> [] -> Forall (fits t) zs ->
  ((forall k, (1 <= k <= List.length zs)%nat -> fits t (sum_first k zs)) -> apply_function (to_ctx E u) (lit "sum") zs w = (Ok (sum_first (List.length zs) zs), w)) /\
  (~ (forall k, (1 <= k <= List.length zs)%nat -> fits t (sum_first k zs)) -> apply_function (to_ctx E u) (lit "sum") zs w = (Panic, w)) /\
  ((forall k, (1 <= k <= List.length zs)%nat -> fits t (product_first k zs)) -> apply_function (to_ctx E u) (lit "product") zs w = (Ok (product_first (List.length zs) zs), w)) /\
  (~ (forall k, (1 <= k <= List.length zs)%nat -> fits t (product_first k zs)) -> apply_function (to_ctx E u) (lit "product") zs w = (Panic, w)).
Proof.
  intros W t L rnd E cf u H zs w Hne Hf. rewrite (u_sum_is t true L rnd E cf u H), (u_prod_is t true L rnd E cf u H).
  destruct zs as [|z zs]; [congruence|]. inversion Hf as [|? ? Fz Fzs]; subst.
  pose proof (fold_args_none t Z.add 0 Z.add_assoc Z.add_0_l Z.add_0_r z zs Fz) as S. pose proof (fold_args_none t Z.mul 1 Z.mul_assoc Z.mul_1_l Z.mul_1_r z zs Fz) as P.
  unfold total in S, P. unfold u_sum, u_prod, fun_, lift, sum_first, product_first. rewrite firstn_all. cbn [fn_call int_num n_add n_mul List.length].
  assert (FS : forall op : Z -> Z -> Z, (forall x y, agree True (checked t (op x y)) (raw t true (op x y)))) by (intros op x y; unfold agree, checked, raw; destruct (in_range t (op x y)); auto).
  split; [|split; [|split]]; intros Hk.
  - destruct S as [[S1 S2]|[(k & Hk1 & S1) S2]]; [|exfalso; apply S1; apply Hk; exact Hk1].
    destruct (fold_same True _ _ (FS Z.add) (z :: zs) None) as [[_ X]| ->]; [congruence|]. rewrite S2. reflexivity.
  - destruct S as [[S1 S2]|[(k & Hk1 & S1) S2]]; [exfalso; apply Hk; exact S1|]. rewrite (fold_debug t Z.add _ _ S2). reflexivity.
  - destruct P as [[S1 S2]|[(k & Hk1 & S1) S2]]; [|exfalso; apply S1; apply Hk; exact Hk1].
    destruct (fold_same True _ _ (FS Z.mul) (z :: zs) None) as [[_ X]| ->]; [congruence|]. rewrite S2. reflexivity.
  - destruct P as [[S1 S2]|[(k & Hk1 & S1) S2]]; [exfalso; apply Hk; exact S1|]. rewrite (fold_debug t Z.mul _ _ S2). reflexivity.
Qed.
Print Assumptions C82_sum_product_debug.

(** ** Argument counts in the unchecked context: as in the checked one (C45) *)
Lemma raw_fold_count : forall V (n : num V) (op : V -> V -> res V), (forall x y, op x y <> Err InvalidArgumentCount) -> forall args acc,
  fold_args op acc args <> Err InvalidArgumentCount /\ (fold_args op acc args = Ok None <-> acc = None /\ args = []).
Proof.
  intros V n op Ho args. induction args as [|x args IH]; intros acc; cbn [fold_args].
  - split; [discriminate|]. split; [intros H; injection H as ->; auto|intros [-> _]; reflexivity].
  - destruct acc as [a|].
    + pose proof (Ho a x) as K. destruct (op a x) as [z| |]; cbn [rbind].
      * destruct (IH (Some z)) as [I1 I2]. split; [exact I1|]. rewrite I2. split; intros []; discriminate.
      * split; [congruence|]. split; [discriminate|intros []; discriminate].
      * split; [discriminate|]. split; [discriminate|intros []; discriminate].
    + destruct (IH (Some x)) as [I1 I2]. split; [exact I1|]. rewrite I2. split; intros []; discriminate.
Qed.
Theorem C82_argument_counts : forall V W (n : num V) L (rnd : W -> f64 * W) E dbg cf u, unchecked_context n L rnd E dbg cf = Ok u ->
  (forall x y, n_add n x y <> Err InvalidArgumentCount /\ n_mul n x y <> Err InvalidArgumentCount /\ n_div n x y <> Err InvalidArgumentCount) ->
  forall name f args w, get_function (to_ctx E u) name = Some f ->
  (fst (fn_call f args w) = Err InvalidArgumentCount <-> accepts (fn_name f) (List.length args) = false) /\ eq_ignore_case E name (fn_name f) = true.
Proof.
  intros V W n L rnd E dbg cf u H Hop name f args w Hf. apply ProofCtx.unchecked_inv in H. destruct H as (p & e & _ & _ & ->).
  apply found_fun in Hf. destruct Hf as [Hi He]. split; [|exact He].
  assert (Hs : forall op, (forall x y, op x y <> Err InvalidArgumentCount) -> (rbind (fold_args op None args) (@or_no_args V) = Err InvalidArgumentCount <-> (1 <=? List.length args)%nat = false)).
  { intros op Ho. destruct (raw_fold_count V n op Ho args None) as [A B]. destruct args as [|x args]; [cbn; tauto|].
    destruct (fold_args op None (x :: args)) as [[v|]| |]; cbn [rbind or_no_args]; cbn [List.length Nat.leb]; split; try congruence.
    intros _. exfalso. destruct (proj1 B eq_refl). discriminate. }
  unfold unchecked_funs in Hi. apply in_app_or in Hi. destruct Hi as [Hi|Hi]; [|exact (proj2 (common_calm n L f Hi args w))].
  assert (Hchk : In f (checked_funs n L rnd true) -> fn_name f <> lit "avg" -> fst (fn_call f args w) = Err InvalidArgumentCount <-> accepts (fn_name f) (List.length args) = false)
    by (intros I1 I2; exact (proj2 (checked_calm n L rnd true f I1 I2 args w))).
  cbn [In] in Hi. destruct Hi as [<-|[<-|[<-|Hi]]].
  - apply (Hs (n_add n)). intros x y. apply Hop.
  - change (accepts (fn_name (u_avg (W := W) n)) (List.length args)) with (1 <=? List.length args)%nat. cbn [u_avg fun_ fn_call lift fst].
    destruct (raw_fold_count V n (n_add n) (fun x y => proj1 (Hop x y)) args None) as [A B]. destruct args as [|x args]; [cbn; tauto|].
    destruct (fold_args (n_add n) None (x :: args)) as [[v|]| |]; cbn [rbind]; cbn [List.length Nat.leb]; split; try congruence.
    + destruct (n_from_usize n (S (List.length args))); [|discriminate]. intros X. exfalso. exact (proj2 (proj2 (Hop _ _)) X).
    + intros _. exfalso. destruct (proj1 B eq_refl). discriminate.
  - apply (Hs (n_mul n)). intros x y. apply Hop.
  - apply Hchk; [unfold checked_funs; apply in_or_app; left; cbn [In]; tauto|]. clear -Hi. repeat (destruct Hi as [<-|Hi]; [vm_compute; discriminate|]). destruct Hi.
Qed.
Print Assumptions C82_argument_counts.

(** ** Examples, over [i8]: [100 - 50 * 2 / 3 + avg(5, 8)] is the same in both contexts; [100 + 100] and [sum(100, 100)] overflow, and
    the unchecked context of a release build gives -56 while that of a debug build panics; [abs] is missing. *)
Definition i8_both (dbg : bool) (s : string) : option (res Z * res Z) :=
  match checked_context (int_num i8 dbg) no_libm no_random true std_env dbg plain_config, unchecked_context (int_num i8 dbg) no_libm no_random std_env dbg plain_config with
  | Ok d, Ok u => Some (fst (eval (to_ctx (W := unit) std_env (assign std_env dbg [(lit "x", 100)] d)) (parse_int i8) (split_into_tokens default_splitter) dbg (lit s) tt),
                        fst (eval (to_ctx (W := unit) std_env (assign std_env dbg [(lit "x", 100)] u)) (parse_int i8) (split_into_tokens default_splitter) dbg (lit s) tt))
  | _, _ => None
  end.
Example C82_case : i8_both false "x - 50 * 2 / 3 + avg(5, 8)" = Some (Ok 73, Ok 73) /\ i8_both true "x / (3 - 3)" = Some (Err DivisionByZero, Err DivisionByZero) /\
  i8_both false "100 + x" = Some (Err Overflow, Ok (-56)) /\ i8_both true "100 + x" = Some (Err Overflow, Panic) /\
  i8_both false "sum(100, x)" = Some (Err Overflow, Ok (-56)) /\ i8_both true "product(x, 2)" = Some (Err Overflow, Panic) /\
  i8_both false "abs(x)" = Some (Ok 100, Err InvalidInput) /\ i8_both true "max(3)" = Some (Err InvalidArgumentCount, Err InvalidArgumentCount).
Proof. vm_compute. repeat split; reflexivity. Qed.
Example C82_words : (forall word, In word (split_into_tokens default_splitter (lit "x - 50 * 2 / 3 + avg(5, 8)")) -> ~ names_missing std_env true word) /\
  names_missing std_env true (lit "ABS").
Proof.
  split; [|exists "abs"; split; [left; reflexivity|reflexivity]]. intros word Hin (name & Hm & He).
  assert (Hex : existsb (fun wd => existsb (fun nm => eq_ignore_case std_env wd (lit nm)) (missing true)) (split_into_tokens default_splitter (lit "x - 50 * 2 / 3 + avg(5, 8)")) = true)
    by (apply existsb_exists; exists word; split; [exact Hin|apply existsb_exists; exists name; auto]). vm_compute in Hex. discriminate.
Qed.
