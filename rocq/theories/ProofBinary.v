(** * Binary contexts and the text of binary numbers *)
From Coq Require Import List NArith ZArith Bool Arith Lia String.
From Verif Require Import ModelBase ModelContext ModelEvaluator ModelText ModelDefault ModelNum ModelOps ModelParse ModelBinary
  SpecText SpecExpr SpecTokens SpecOps SpecParse SpecBinary ProofText ProofDefault ProofBuild ProofOps ProofParse ProofTokens2.
Import ListNotations.
Local Open Scope Z_scope.

(** ** 128 bits *)

Definition fits128 : forall z, fits i128 z <-> - 2 ^ 127 <= z < 2 ^ 127. Proof. intros z. reflexivity. Qed.

(** A number fits iff its bits from 127 on agree. *)
Lemma fits_shiftr : forall z, fits i128 z <-> Z.shiftr z 127 = 0 \/ Z.shiftr z 127 = -1.
Proof.
  intros z. rewrite fits128, Z.shiftr_div_pow2 by lia. pose proof (Z.div_mod z (2 ^ 127) ltac:(lia)). pose proof (Z.mod_pos_bound z (2 ^ 127) ltac:(lia)). split; intros.
  - nia. - lia.
Qed.
Lemma fits_land : forall x y, fits i128 x -> fits i128 y -> fits i128 (Z.land x y).
Proof.
  intros x y Hx Hy. rewrite fits_shiftr in *. rewrite Z.shiftr_land. destruct Hx as [-> | ->], Hy as [-> | ->]; cbn; auto.
Qed.
Lemma fits_lor : forall x y, fits i128 x -> fits i128 y -> fits i128 (Z.lor x y).
Proof.
  intros x y Hx Hy. rewrite fits_shiftr in *. rewrite Z.shiftr_lor. destruct Hx as [-> | ->], Hy as [-> | ->]; cbn; auto.
Qed.
Lemma fits_lxor : forall x y, fits i128 x -> fits i128 y -> fits i128 (Z.lxor x y).
Proof.
  intros x y Hx Hy. rewrite fits_shiftr in *. rewrite Z.shiftr_lxor. destruct Hx as [-> | ->], Hy as [-> | ->]; cbn; auto.
Qed.
Lemma fits_lnot : forall x, fits i128 x -> fits i128 (Z.lnot x).
Proof. intros x. rewrite !fits128. unfold Z.lnot. lia. Qed.
Lemma shiftr_between : forall x k, 0 <= k -> Z.shiftr x k * 2 ^ k <= x < (Z.shiftr x k + 1) * 2 ^ k.
Proof.
  intros x k Hk. rewrite Z.shiftr_div_pow2 by lia. assert (0 < 2 ^ k) by (apply Z.pow_pos_nonneg; lia).
  pose proof (Z.div_mod x (2 ^ k) ltac:(lia)). pose proof (Z.mod_pos_bound x (2 ^ k) ltac:(lia)). nia.
Qed.
Lemma fits_shiftr_k : forall x k, 0 <= k -> fits i128 x -> fits i128 (Z.shiftr x k).
Proof.
  intros x k Hk. rewrite !fits128. intros H. pose proof (shiftr_between x k Hk). assert (0 < 2 ^ k) by (apply Z.pow_pos_nonneg; lia). nia.
Qed.
Lemma fits_01 : forall b : bool, fits i128 (if b then 1 else 0).
Proof. intros []; rewrite fits128; lia. Qed.

(** ** The context *)
Section Ctx.
Context {W : Type}.
Variable dbg : bool.
Variable E : env.
Variable cf : config.

Definition bin_ops : list (bfunc Z W) :=
  [b_and; b_or; b_xor; b_eq; b_ne; b_gt; b_lt; b_gte; b_lte; b_shr dbg; b_shl dbg].
Definition bin_steps : list (step Z W) := SUn b_not :: map SBin bin_ops.
Lemma bin_names : steps_ok bin_steps = true. Proof. reflexivity. Qed.
Lemma binary_is : binary_context (W := W) dbg E cf = Ok (DCtx [] [] [] (uns_of bin_steps) (bins_of bin_steps) cf).
Proof. exact (build_ctx E dbg bin_steps cf bin_names). Qed.

Variable d : dctx Z W.
Hypothesis H : binary_context dbg E cf = Ok d.

Lemma d_is : d = DCtx [] [] [] (uns_of bin_steps) (bins_of bin_steps) cf.
Proof. pose proof binary_is. congruence. Qed.
Lemma binary_lookup : forall name f q, In (name, f) (bins_of bin_steps) -> ascii_alike q name -> get_binary (to_ctx E d) q = Some f.
Proof.
  intros name f q Hi Hq. rewrite d_is. cbn [get_binary to_ctx d_binary]. eapply mget_in; [reflexivity|exact Hi|exact Hq].
Qed.
Lemma binary_not : forall q, ascii_alike q (lit "~") \/ ascii_alike q (lit "not") -> get_unary (to_ctx E d) q = Some b_not.
Proof.
  intros q Hq. rewrite d_is. cbn [get_unary to_ctx d_unary]. destruct Hq as [Hq|Hq];
  (eapply mget_in; [reflexivity| |exact Hq]; simpl; auto).
Qed.
Lemma binary_found : forall q f, get_binary (to_ctx E d) q = Some f -> In f bin_ops.
Proof.
  intros q f Hf. rewrite d_is in Hf. cbn [get_binary to_ctx d_binary] in Hf. apply mget_some in Hf. destruct Hf as (k & Hin & _).
  unfold bins_of in Hin. apply in_flat_map in Hin. destruct Hin as (s & Hs & Hin). destruct s as [|f'|f'|f']; try contradiction.
  assert (f = f'). { apply in_app_or in Hin. destruct Hin as [Hin|[Hin|[]]]; [apply in_map_iff in Hin; destruct Hin as (a & X & _)|]; congruence. }
  subst f'. destruct Hs as [Hs|Hs]; [discriminate|]. apply in_map_iff in Hs. destruct Hs as (g & X & Hg). injection X as <-. exact Hg.
Qed.
Lemma binary_found_name : forall q f, get_binary (to_ctx E d) q = Some f -> exists k, In (k, f) (bins_of bin_steps) /\ eq_ignore_case E q k = true.
Proof.
  intros q f Hf. rewrite d_is in Hf. cbn [get_binary to_ctx d_binary] in Hf. apply mget_some in Hf. destruct Hf as (k & Hin & Hk). exists k. split; [exact Hin|].
  apply key_match_eq in Hk. exact Hk.
Qed.
Lemma binary_found_un : forall q f, get_unary (to_ctx E d) q = Some f -> f = b_not.
Proof.
  intros q f Hf. rewrite d_is in Hf. cbn [get_unary to_ctx d_unary] in Hf. apply mget_some in Hf. destruct Hf as (k & Hin & _).
  simpl in Hin. destruct Hin as [X|[X|[]]]; congruence.
Qed.
Lemma binary_no_fun : forall q, get_function (to_ctx E d) q = None. Proof. intros q. rewrite d_is. reflexivity. Qed.
Lemma binary_no_const : forall q, get_constant (to_ctx E d) q = None. Proof. intros q. rewrite d_is. reflexivity. Qed.
Lemma binary_no_var : forall q, get_variable (to_ctx E d) q = None. Proof. intros q. rewrite d_is. reflexivity. Qed.
Lemma binary_cfg : cfg (to_ctx E d) = cf. Proof. rewrite d_is. reflexivity. Qed.

Lemma truth_says : forall (P : Prop) (b : bool), (P <-> b = true) -> says P (if b then 1 else 0).
Proof. intros P [] HP; unfold says; [left|right]; intuition discriminate. Qed.

Definition implements (o : binary_operator) (f : bfunc Z W) : Prop :=
  bf_prec f = precedence o /\ bf_assoc f = LeftA /\
  forall x y w, fits i128 x -> fits i128 y -> (is_shift o = true -> 0 <= y < 128) ->
    exists r, bf_call f x y w = (Ok r, w) /\ fits i128 r /\ means o x y r.

Lemma shift_in : forall g y, 0 <= y < 128 -> shift dbg g y = Ok (g y).
Proof. intros g y Hy. unfold shift. destruct (0 <=? y) eqn:A; destruct (y <? 128) eqn:B; simpl; try reflexivity; lia. Qed.


Ltac impl := split; [reflexivity|split; [reflexivity|]]; intros x y w Hx Hy Hs; cbn [means is_shift] in *; unfold bin2; cbn [bf_call]; unfold lift, truth.
Ltac compares := eexists; split; [reflexivity|]; split; [apply fits_01|]; apply truth_says.

Definition the_ops : list (bfunc Z W) := [b_or; b_xor; b_and; b_eq; b_ne; b_gt; b_lt; b_gte; b_lte; b_shr dbg; b_shl dbg].
Lemma all_implemented : Forall2 implements binary_operators the_ops.
Proof.
  unfold binary_operators, the_ops. repeat apply Forall2_cons; [..|apply Forall2_nil].
  - impl. eexists. split; [reflexivity|]. split; [apply fits_lor; assumption|]. intros i Hi. apply Z.lor_spec.
  - impl. eexists. split; [reflexivity|]. split; [apply fits_lxor; assumption|]. intros i Hi. apply Z.lxor_spec.
  - impl. eexists. split; [reflexivity|]. split; [apply fits_land; assumption|]. intros i Hi. apply Z.land_spec.
  - impl. compares. symmetry. apply Z.eqb_eq.
  - impl. compares. rewrite negb_true_iff, Z.eqb_neq. reflexivity.
  - impl. compares. rewrite Z.ltb_lt. lia.
  - impl. compares. rewrite Z.ltb_lt. lia.
  - impl. compares. rewrite Z.leb_le. lia.
  - impl. compares. rewrite Z.leb_le. lia.
  - impl. specialize (Hs eq_refl). exists (Z.shiftr x y). split; [change (bf_call (b_shr dbg) x y w) with (shift dbg (Z.shiftr x) y, w); rewrite shift_in by exact Hs; reflexivity|].
    split; [apply fits_shiftr_k; [lia|assumption]|]. apply shiftr_between. lia.
  - impl. specialize (Hs eq_refl). exists (wrap i128 (Z.shiftl x y)). split; [change (bf_call (b_shl dbg) x y w) with (shift dbg (fun k => wrap i128 (Z.shiftl x k)) y, w); rewrite shift_in by exact Hs; reflexivity|].
    destruct (wrap_spec i128 (Z.shiftl x y) ltac:(reflexivity)) as (F & k & Hk). split; [exact F|]. split; [exact F|]. exists k. rewrite Hk.
    rewrite Z.shiftl_mul_pow2 by lia. reflexivity.
Qed.
Lemma all_named : Forall2 (fun o f => Forall (fun name => In (lit name, f) (bins_of bin_steps)) (names o)) binary_operators the_ops.
Proof.
  unfold binary_operators, the_ops. repeat apply Forall2_cons; try apply Forall2_nil; cbn [names]; repeat apply Forall_cons; try apply Forall_nil;
  unfold bins_of, bin_steps, bin_ops; cbn [map flat_map app]; unfold bin2; cbn [bf_aliases bf_name map];
  repeat first [left; reflexivity | right].
Qed.

Lemma Forall2_in : forall A B (R S : A -> B -> Prop) la lb, Forall2 R la lb -> Forall2 S la lb -> forall a, In a la -> exists b, In b lb /\ R a b /\ S a b.
Proof.
  induction 1 as [|a b la lb HR _ IH]; intros HS x Hx; inversion HS; subst; [destruct Hx|]. destruct Hx as [<-|Hx]; [exists b; simpl; auto|].
  destruct (IH ltac:(assumption) x Hx) as (b' & B1 & B2). exists b'. simpl. tauto.
Qed.
Lemma operators_implemented : forall o, In o binary_operators -> exists f, implements o f /\ forall name q, In name (names o) -> ascii_alike q (lit name) -> get_binary (to_ctx E d) q = Some f.
Proof.
  intros o Ho. destruct (Forall2_in _ _ _ _ _ _ all_implemented all_named o Ho) as (f & _ & I & N). exists f. split; [exact I|].
  intros name q Hn Hq. rewrite Forall_forall in N. apply (binary_lookup (lit name)); [apply N; exact Hn|exact Hq].
Qed.


Lemma shift_names : forall k f, In (k, f) (bins_of bin_steps) -> f = b_shr dbg \/ f = b_shl dbg -> In k [lit ">>"; lit "shr"; lit "<<"; lit "shl"].
Proof.
  intros k f Hk Hs. assert (N : bf_name f = lit ">>" \/ bf_name f = lit "<<") by (destruct Hs as [-> | ->]; [left|right]; reflexivity). clear Hs.
  unfold bins_of in Hk. apply in_flat_map in Hk. destruct Hk as (s & Hs & Hk). destruct s as [|g|g|g]; try contradiction.
  assert (F : f = g). { apply in_app_or in Hk. destruct Hk as [Hk|[Hk|[]]]; [apply in_map_iff in Hk; destruct Hk as (a & X & _)|]; congruence. }
  subst g. assert (K : In k (bf_aliases f ++ [bf_name f])).
  { apply in_app_or in Hk. apply in_or_app. destruct Hk as [Hk|[Hk|[]]]; [left; apply in_map_iff in Hk; destruct Hk as (a & X & Y)|right; left]; congruence. }
  clear Hk. unfold bin_steps in Hs. destruct Hs as [Hs|Hs]; [discriminate|]. apply in_map_iff in Hs. destruct Hs as (h & X & Hh). injection X as ->.
  unfold bin_ops in Hh. repeat (destruct Hh as [<-|Hh]; [try (exfalso; destruct N as [N|N]; discriminate N)|]); try contradiction;
  (destruct K as [<-|[<-|[]]]; [|]); simpl; auto.
Qed.


Lemma means_unique : forall o x y r1 r2, In o binary_operators -> (is_shift o = true -> 0 <= y < 128) -> means o x y r1 -> means o x y r2 -> r1 = r2.
Proof.
  intros o x y r1 r2 Ho Hs.
  assert (B : forall f, bitwise f x y r1 -> bitwise f x y r2 -> r1 = r2).
  { intros f B1 B2. apply Z.bits_inj'. intros i Hi. rewrite B1, B2 by exact Hi. reflexivity. }
  assert (T : forall P, says P r1 -> says P r2 -> r1 = r2) by (unfold says; intros P; tauto || (intros [[? ->]|[? ->]] [[? ->]|[? ->]]; tauto)).
  unfold binary_operators in Ho.
  repeat (destruct Ho as [<-|Ho]; [cbn [means is_shift] in *|]); try contradiction; try (apply B); try (apply T).
  - specialize (Hs eq_refl). intros A1 A2. assert (0 < 2 ^ y) by (apply Z.pow_pos_nonneg; lia). nia.
  - intros [F1 K1] [F2 K2]. rewrite (wrap_unique i128 _ r1 ltac:(reflexivity) F1 K1), (wrap_unique i128 _ r2 ltac:(reflexivity) F2 K2). reflexivity.
Qed.

(** The only panics are shifts by an amount out of range in debug builds. *)
Lemma op_panics : forall f x y w, In f bin_ops -> fst (bf_call f x y w) = Panic -> dbg = true /\ (f = b_shr dbg \/ f = b_shl dbg) /\ ~ 0 <= y < 128.
Proof.
  intros f x y w Hf Hp. unfold bin_ops in Hf.
  assert (Sh : forall g, fst (lift (W := W) (shift dbg g y) w) = Panic -> dbg = true /\ ~ 0 <= y < 128).
  { intros g X. unfold lift, shift in X. destruct (0 <=? y) eqn:A; destruct (y <? 128) eqn:B; cbn in X; try discriminate; destruct dbg; try discriminate; split; auto; lia. }
  repeat (destruct Hf as [<-|Hf]; [|]); try contradiction; try discriminate Hp.
  all: apply Sh in Hp; tauto.
Qed.
End Ctx.

(** ** Expressions *)
Lemma means_fits : forall o x y r, In o binary_operators -> fits i128 x -> fits i128 y -> (is_shift o = true -> 0 <= y < 128) -> means o x y r -> fits i128 r.
Proof.
  intros o x y r Ho Fx Fy Hs Hm. destruct (Forall2_in _ _ _ _ _ _ (all_implemented (W := unit) true) (all_implemented (W := unit) true) o Ho) as (f & _ & (_ & _ & Hf) & _).
  destruct (Hf x y tt Fx Fy Hs) as (r' & _ & F & M). rewrite (means_unique o x y r r' Ho Hs Hm M). exact F.
Qed.
Section Values.
Context {W : Type}.
Variables (dbg : bool) (E : env) (cf : config) (d : dctx Z W).
Hypothesis H : binary_context dbg E cf = Ok d.
Lemma value_denote : forall e v, has_value e v -> fits i128 v /\ forall w, denote (to_ctx E d) e w = (Ok v, w).
Proof.
  induction 1 as [v Hv|g e v _ IH|u e x r Hu _ [Fx IH] Hr|q o l r x y v Ho [name [Hn Hq]] _ [Fx IHl] _ [Fy IHr] Hs Hm].
  - split; [exact Hv|]. reflexivity.
  - exact IH.
  - assert (r = Z.lnot x). { apply Z.bits_inj'. intros i Hi. rewrite Hr by exact Hi. rewrite Z.lnot_spec by exact Hi. reflexivity. } subst r.
    split; [apply fits_lnot; exact Fx|]. intros w. cbn [denote]. unfold bind. rewrite IH. unfold apply_unary. rewrite (binary_not dbg E cf d H u Hu). reflexivity.
  - destruct (operators_implemented dbg E cf d H o Ho) as (f & (_ & _ & Hf) & Hg). split; [exact (means_fits o x y v Ho Fx Fy Hs Hm)|].
    intros w; cbn [denote]; unfold bind; rewrite IHl, IHr; unfold apply_binary; rewrite (Hg name q Hn Hq).
    destruct (Hf x y w Fx Fy Hs) as (r' & C & F & M). rewrite (means_unique o x y v r' Ho Hs Hm M). exact C.
Qed.
Lemma value_exists : forall e, bit_expression e -> exists v, has_value e v.
Proof.
  induction e as [v|x|x|g e IH|f g args IH|u e IH|e u IH|o l r IHl IHr|l r IHl IHr] using expr_ind'; cbn [bit_expression]; intros B; try contradiction.
  - exists v. constructor. exact B.
  - destruct (IH B) as [v Hv]. exists v. constructor. exact Hv.
  - destruct B as [Bu B]. destruct (IH B) as [v Hv]. exists (Z.lnot v). eapply V_not; [exact Bu|exact Hv|]. intros i Hi. apply Z.lnot_spec. exact Hi.
  - destruct B as ((op & Ho & Hn & Hs) & Bl & Br). destruct (IHl Bl) as [x Hx]. destruct (IHr Br) as [y Hy].
    destruct (Forall2_in _ _ _ _ _ _ (all_implemented (W := unit) true) (all_implemented (W := unit) true) op Ho) as (f & _ & (_ & _ & Hf) & _).
    destruct (Hf x y tt) as (v & _ & _ & M); [apply (value_denote l x Hx)|apply (value_denote r y Hy)|rewrite Hs; discriminate|].
    exists v. eapply V_operator; try eassumption. rewrite Hs. discriminate.
Qed.
End Values.

(** ** Text *)

Lemma bits_digits : forall p, digits 2 (bits_of p) (Zpos p).
Proof.
  induction p as [p IH|p IH|]; cbn [bits_of].
  - replace (Zpos p~1) with (2 * Zpos p + 1) by lia. apply digits_more; [exact IH|lia|reflexivity].
  - replace (Zpos p~0) with (2 * Zpos p + 0) by lia. apply digits_more; [exact IH|lia|reflexivity].
  - replace 1 with (2 * 0 + 1) at 1 by lia. apply (digits_more 2 [] 0 1 49%N); [constructor|lia|reflexivity].
Qed.
Lemma bits_first : forall p, exists s, bits_of p = 49%N :: s.
Proof. induction p as [p [s IH]|p [s IH]|]; cbn [bits_of]; try rewrite IH; cbn; eauto. Qed.
Lemma show_digits : forall z, digits 2 (show_binary z) (z mod 2 ^ 128).
Proof.
  intros z. unfold show_binary. pose proof (Z.mod_pos_bound z (2 ^ 128) ltac:(lia)). destruct (z mod 2 ^ 128) as [|p|p] eqn:Ez.
  - replace 0 with (2 * 0 + 0) at 1 by lia. apply (digits_more 2 [] 0 0 48%N); [constructor|lia|reflexivity].
  - apply bits_digits. - lia.
Qed.
Lemma show_nonempty : forall z, show_binary z <> [].
Proof. intros z. unfold show_binary. destruct (z mod 2 ^ 128) as [|p|p]; try discriminate. destruct (bits_first p) as [s ->]. discriminate. Qed.
Lemma digits_unique : forall radix s v1 v2, digits radix s v1 -> digits radix s v2 -> v1 = v2.
Proof.
  intros radix s v1 v2 D1. revert v2. induction D1 as [|s v1 d c D1 IH Hd1 Hc1]; intros v2 D2; inversion D2 as [E2|l2 v3 d2 c2 D3 Hd3 Hc3 E2 E3].
  - reflexivity. - destruct l2; discriminate. - destruct s; discriminate.
  - apply app_inj_tail in E2. destruct E2 as [-> ->]. rewrite (IH _ D3). lia.
Qed.
Lemma digits_signs : forall radix s v, radix <= 10 -> digits radix s v -> match s with c :: _ => c <> 43%N /\ c <> 45%N /\ c <> 98%N | [] => True end.
Proof.
  intros radix [|c s] v Hr D; [exact I|]. pose proof (digits_char radix _ v c Hr D (or_introl eq_refl)). lia.
Qed.
Lemma numeral_digits : forall radix sg s v w, radix <= 10 -> digits radix s v -> numeral radix sg s w -> w = v.
Proof.
  intros radix sg s v w Hr D N. pose proof (digits_signs radix s v Hr D) as S. inversion N; subst; [eapply digits_unique; eassumption|exfalso; destruct S as (S1 & S2 & _); congruence|exfalso; destruct S as (S1 & S2 & _); congruence].
Qed.

Lemma parse_binary_spec : forall s v, parse_binary s = Some v <->
  fits i128 v /\ ((exists t, s = 98%N :: t /\ numeral 2 true t v) \/ numeral 10 true s v).
Proof.
  intros s v. unfold parse_binary.
  assert (NB : forall t w, ~ numeral 10 true (98%N :: t) w).
  { intros t w N. inversion N; subst. match goal with D : digits 10 _ _ |- _ => pose proof (digits_signs 10 _ _ ltac:(lia) D) as X end. cbn in X. tauto. }
  assert (G : forall s', (forall t, s' <> 98%N :: t) -> (parse_int i128 s' = Some v <-> fits i128 v /\ ((exists t, s' = 98%N :: t /\ numeral 2 true t v) \/ numeral 10 true s' v))).
  { intros s' Hs. rewrite parse_int_spec by reflexivity. split; [tauto|]. intros (F & [(t & Ht & _)|N]); [exfalso; apply (Hs t); exact Ht|]. auto. }
  destruct s as [|c t]; [apply G; discriminate|]. destruct (N.eq_dec c 98) as [->|Hc].
  - rewrite radix_spec by (try reflexivity; lia). split.
    + intros [N F]. split; [exact F|]. left. exists t. auto.
    + intros (F & [(t' & X & N)|N]); [injection X as <-; auto|]. exfalso. exact (NB _ _ N).
  - assert (X : (match c with 98%N => from_str_radix i128 2 t | _ => parse_int i128 (c :: t) end) = parse_int i128 (c :: t)).
    { destruct c as [|p]; [reflexivity|]. repeat (destruct p as [p|p|]; try reflexivity). congruence. }
    rewrite X. apply G. intros t' Y. injection Y as -> _. congruence.
Qed.

(** A string of the digits 0 and 1 read in base 10 is at least its value in base 2, and equal only up to 1. *)
Lemma ten_two : forall s v2 v10, digits 2 s v2 -> digits 10 s v10 -> v2 <= v10 /\ (v2 = v10 -> v2 <= 1).
Proof.
  intros s v2 v10 D2. revert v10. induction D2 as [|s v d c D2 IH Hd Hc]; intros v10 D10; inversion D10 as [E1|l w d' c' D' Hd' Hc' E1 E2].
  - lia. - destruct l; discriminate. - destruct s; discriminate.
  - apply app_inj_tail in E1. destruct E1 as [-> ->]. destruct (IH _ D') as [A B].
    assert (0 <= v). { apply digits_iff in D2. apply (df_mono 2 0 s v); [lia|lia|exact D2]. }
    split; [lia|]. intros X. assert (v = w) by lia. specialize (B H0). lia.
Qed.
Lemma digits_two_ten : forall s v, digits 2 s v -> exists v10, digits 10 s v10.
Proof. induction 1 as [|s v d c D [w IH] Hd Hc]; [exists 0; constructor|]. exists (10 * w + d). apply digits_more; [exact IH|lia|exact Hc]. Qed.
