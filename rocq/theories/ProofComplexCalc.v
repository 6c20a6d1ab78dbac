(** * The calculator of SpecComplexCalc is what complex contexts compute, and its result is determined *)
From Coq Require Import List NArith ZArith QArith Qabs Bool Arith Lia Lqa String.
From Coq Require Import Floats.SpecFloat.
From Verif Require Import ModelBase ModelContext ModelEvaluator ModelText ModelDefault ModelFloat ModelNum ModelOps ModelComplex
  SpecExpr SpecText SpecOps SpecRepl SpecDecimal SpecDouble SpecFunctions SpecRound SpecComplex SpecCalculator SpecDoubleCalc SpecComplexCalc
  ProofText ProofDefault ProofBuild ProofOps ProofDecimal ProofFloat ProofDouble ProofDouble2 ProofSnap ProofRound ProofRound2 ProofRound3 ProofCalculator ProofComplex ProofDoubleCalc ProofDoubleCalc2.
Import ListNotations.
Local Open Scope Z_scope.

(** ** The operations *)
Lemma division_ieee : forall x y, ieee_division x y (f_div x y).
Proof.
  intros x y. unfold ieee_division. destruct (zero_double y) eqn:Y; [|apply quotient_ieee; exact Y]. destruct y as [t|t| |t n f]; try discriminate Y. destruct x as [s|s| |s m e]; reflexivity.
Qed.
Lemma whole_ieee : forall x, ieee_whole x (f_sub x (f_rem x f_one)).
Proof.
  intros x. unfold ieee_whole. destruct (finite x) eqn:F.
  - intros p P. assert (D : a_double (inject_Z (truncated p))) by (apply (stands_double (f_trunc x)); apply trunc_spec; exact P).
    split; [apply whole_part; assumption|]. intros T0.
    pose proof (remainder_ieee x f_one eq_refl) as R. pose proof (difference_ieee x (f_rem x f_one)) as S. unfold ieee_difference in S.
    assert (Rm : stands_for (f_rem x f_one) (p - 1 * inject_Z (truncated (p / 1))) /\ negative (f_rem x f_one) = negative x).
    { destruct x as [s|s| |s m e]; try discriminate F; exact (R p 1%Q P one_stands). }
    destruct Rm as [R1 R2]. assert (T : truncated (p / 1) = truncated p) by (apply truncated_comp; field). rewrite T, T0 in R1.
    assert (R1' : stands_for (f_rem x f_one) p) by (apply (stands_comp _ (p - 1 * inject_Z 0)%Q); [change (inject_Z 0) with 0%Q; ring|exact R1]).
    pose proof (neg_exact _ _ R1') as R3. rewrite opposite_is in R3. revert S R3. generalize (f_sub x (f_rem x f_one)) as z. intros z S R3.
    assert (G : ((p + - p == 0)%Q -> negative z = negative x && negative (opposite (f_rem x f_one)))).
    { revert S R3. destruct (f_rem x f_one) as [t|t| |t n f]; try (exfalso; exact R1'); destruct x as [s|s| |s m e]; try discriminate F; intros S R3; apply (S p (- p)%Q P R3). }
    rewrite G by ring. rewrite <- R2. destruct (f_rem x f_one) as [t|t| |t n f]; try (exfalso; exact R1'); destruct t; reflexivity.
  - destruct x as [s|s| |s m e]; try discriminate F; destruct s || idtac; reflexivity.
Qed.
Lemma sum_c : forall x y, complex_sum x y (z_add x y). Proof. intros x y. split; apply sum_ieee. Qed.
Lemma difference_c : forall x y, complex_difference x y (z_sub x y). Proof. intros x y. split; apply difference_ieee. Qed.
Lemma product_c : forall x y, complex_product x y (z_mul x y).
Proof. intros x y. repeat eexists; try apply product_ieee; [apply difference_ieee|apply sum_ieee]. Qed.
Lemma size_c : forall y, square_size y (norm_sqr y). Proof. intros y. repeat eexists; try apply product_ieee. apply sum_ieee. Qed.
Lemma quotient_c : forall x y, complex_quotient x y (z_div x y).
Proof.
  intros x y. do 7 eexists. repeat (split; [apply product_ieee|]). split; [apply sum_ieee|]. split; [apply difference_ieee|]. split; [apply size_c|]. split; apply division_ieee.
Qed.
Lemma reciprocal_c : forall y, complex_reciprocal y (z_inv y).
Proof. intros y. exists (norm_sqr y). split; [apply size_c|]. split; [apply division_ieee|]. rewrite <- opposite_is. apply division_ieee. Qed.
Lemma remainder_c : forall x y, complex_remainder x y (z_rem x y).
Proof.
  intros x y. exists (z_div x y). eexists (_, _). eexists. split; [apply quotient_c|]. split; [apply whole_ieee|]. split; [apply whole_ieee|]. split; [apply product_c|]. apply difference_c.
Qed.

(** ** The context *)
Section Values.
Context {W : Type}.
Variables (L : clib) (rnd : W -> f64 * W) (E : env) (dbg : bool) (cf : config) (d d' : dctx c64 W).
Hypothesis H : complex_context L rnd E dbg cf = Ok d.
Hypothesis Hs : same_but_variables d d'.
Notation c := (to_ctx E d).
Notation c' := (to_ctx E d').
Lemma c_lookups : get_function c' = get_function c /\ get_unary c' = get_unary c /\ get_binary c' = get_binary c /\ get_constant c' = get_constant c.
Proof using Hs. destruct Hs as (A1 & A2 & A3 & A4 & A5). cbn [to_ctx get_function get_unary get_binary get_constant]. rewrite ?A1, ?A2, ?A3, ?A4, ?A5. auto. Qed.
Lemma c_bin : forall i f o nm x y w, nth_error (cx_bins (W := W) L) i = Some f -> bf_name f = lit nm -> named o nm = true -> map small (lit nm) = lit nm -> apply_binary c' o x y w = bf_call f x y w.
Proof using H Hs.
  intros i f o nm x y w I Nm K Lw. unfold apply_binary. destruct c_lookups as (_ & _ & -> & _). rewrite (cx_bin L rnd E dbg cf d H i f o I); [reflexivity|]. rewrite Nm. exact (named_alike _ _ K Lw).
Qed.
Lemma c_fun : forall f o nm xs w, In f (cx_funs L rnd) -> fn_name f = lit nm -> named o nm = true -> map small (lit nm) = lit nm -> apply_function c' o xs w = fn_call f xs w.
Proof using H Hs.
  intros f o nm xs w I Nm K Lw. unfold apply_function. destruct c_lookups as (-> & _). apply In_nth_error in I. destruct I as (i & I). rewrite (cx_fun L rnd E dbg cf d H i f o I); [reflexivity|]. rewrite Nm. exact (named_alike _ _ K Lw).
Qed.
Ltac others K := repeat match goal with |- context [named ?o ?m] => rewrite (named_other o _ m K) by reflexivity end.

Lemma c_operation_said : forall o x y w, one_of ["+"; "-"; "*"; "/"; "mod"; "^"]%string o -> exists r, complex_operation L o x y r /\ apply_binary c' o x y w = (r, w).
Proof using H Hs.
  intros o x y w (nm & Hn & K). unfold complex_operation, complex_with. cbn [In] in Hn. destruct Hn as [<-|[<-|[<-|[<-|[<-|[<-|[]]]]]]]; rewrite K; others K.
  - rewrite (c_bin 0 _ o "+" x y w eq_refl eq_refl K eq_refl). eexists. split; [|reflexivity]. eexists. split; [reflexivity|apply sum_c].
  - rewrite (c_bin 1 _ o "-" x y w eq_refl eq_refl K eq_refl). eexists. split; [|reflexivity]. eexists. split; [reflexivity|apply difference_c].
  - rewrite (c_bin 2 _ o "*" x y w eq_refl eq_refl K eq_refl). eexists. split; [|reflexivity]. eexists. split; [reflexivity|apply product_c].
  - rewrite (c_bin 3 _ o "/" x y w eq_refl eq_refl K eq_refl). cbn [u_div binop bf_call n_is_zero n_div complex_num]. change (z_is_zero y) with (complex_zero y). destruct (complex_zero y).
    + eexists. split; reflexivity.
    + eexists. split; [|reflexivity]. eexists. split; [reflexivity|apply quotient_c].
  - rewrite (c_bin 4 _ o "mod" x y w eq_refl eq_refl K eq_refl). cbn [u_mod binop bf_call n_is_zero n_rem complex_num]. change (z_is_zero y) with (complex_zero y). destruct (complex_zero y).
    + eexists. split; reflexivity.
    + eexists. split; [|reflexivity]. eexists. split; [reflexivity|apply remainder_c].
  - rewrite (c_bin 5 _ o "^" x y w eq_refl eq_refl K eq_refl). eexists. split; reflexivity.
Qed.
Lemma c_product_said : forall x y w, exists r, complex_with (complex_product x y) r /\ apply_binary c' times x y w = (r, w).
Proof using H Hs. intros x y w. rewrite (c_bin 2 _ times "*" x y w eq_refl eq_refl eq_refl eq_refl). eexists. split; [|reflexivity]. eexists. split; [reflexivity|apply product_c]. Qed.

Lemma fold_in_turn : forall (f : c64 -> c64 -> c64) (op : c64 -> c64 -> c64 -> Prop), (forall x y, op x y (f x y)) -> forall xs a, exists z, fold_args (fun u v => Ok (f u v)) (Some a) xs = Ok (Some z) /\ in_turn op a xs z.
Proof using.
  clear. intros f op Hf xs. induction xs as [|x xs IH]; intros a; [exists a; split; reflexivity|]. destruct (IH (f a x)) as (z & A & B). exists z. split; [exact A|]. exists (f a x). auto.
Qed.
Lemma own_in : forall m, In m own_functions -> In (z_fwd L m) (cx_funs L rnd).
Proof using. clear. intros m Hm. unfold own_functions in Hm. repeat (destruct Hm as [<-|Hm]; [unfold cx_funs; repeat first [left; reflexivity|right]|]). destruct Hm. Qed.
Lemma reciprocal_in : forall nm m, In (nm, m) reciprocals -> In (z_fwd_inv L m nm) (cx_funs L rnd).
Proof using. clear. intros nm m Hm. unfold reciprocals in Hm. repeat (destruct Hm as [Hm|Hm]; [injection Hm as <- <-; unfold cx_funs; repeat first [left; reflexivity|right]|]). destruct Hm. Qed.
Lemma small_names : forall nm, In nm (own_functions ++ map fst reciprocals) -> map small (lit nm) = lit nm /\ forallb (fun m => negb (str_eqb (lit nm) (lit m))) ["sum"; "product"; "avg"; "log"]%string = true.
Proof using.
  clear. assert (X : forallb (fun nm => str_eqb (map small (lit nm)) (lit nm) && forallb (fun m => negb (str_eqb (lit nm) (lit m))) ["sum"; "product"; "avg"; "log"]%string) (own_functions ++ map fst reciprocals) = true) by (vm_compute; reflexivity).
  intros nm I. rewrite forallb_forall in X. specialize (X nm I). apply andb_true_iff in X. destruct X as [A B]. apply str_eqb_eq in A. auto.
Qed.
Lemma c_call_said : forall f xs w, one_of (["sum"; "product"; "avg"; "log"]%string ++ own_functions ++ map fst reciprocals) f -> exists r, complex_call L f xs r /\ apply_function c' f xs w = (r, w).
Proof using H Hs.
  intros f xs w (nm & Hn & K). apply in_app_or in Hn. destruct Hn as [Hn|Hn].
  - unfold complex_call. cbn [In] in Hn. destruct Hn as [<-|[<-|[<-|[<-|[]]]]]; rewrite K; others K.
    + rewrite (c_fun (u_sum complex_num) f "sum" xs w (or_introl eq_refl) eq_refl K eq_refl). destruct xs as [|x xs]; [exists (Err InvalidArgumentCount); split; reflexivity|].
      destruct (fold_in_turn z_add complex_sum sum_c xs x) as (z & A & B). exists (Ok z). split; [exists z; split; [reflexivity|exact B]|]. change (fold_args (n_add complex_num) (Some x) xs = Ok (Some z)) in A. change (lift (W := W) (rbind (fold_args (n_add complex_num) (Some x) xs) or_no_args) w = (Ok z, w)). rewrite A. reflexivity.
    + rewrite (c_fun (u_prod complex_num) f "product" xs w (or_intror (or_intror (or_introl eq_refl))) eq_refl K eq_refl). destruct xs as [|x xs]; [exists (Err InvalidArgumentCount); split; reflexivity|].
      destruct (fold_in_turn z_mul complex_product product_c xs x) as (z & A & B). exists (Ok z). split; [exists z; split; [reflexivity|exact B]|]. change (fold_args (n_mul complex_num) (Some x) xs = Ok (Some z)) in A. change (lift (W := W) (rbind (fold_args (n_mul complex_num) (Some x) xs) or_no_args) w = (Ok z, w)). rewrite A. reflexivity.
    + rewrite (c_fun (u_avg complex_num) f "avg" xs w (or_intror (or_introl eq_refl)) eq_refl K eq_refl). destruct xs as [|x xs]; [exists (Err InvalidArgumentCount); split; reflexivity|].
      destruct (fold_in_turn z_add complex_sum sum_c xs x) as (s & A & B). set (k := f_of_Z (Z.of_nat (List.length (x :: xs)))). exists (Ok (z_div s (k, f_zero))). split.
      * exists s, k. split; [exact B|]. split; [apply of_Z_rounds|]. eexists. split; [reflexivity|apply quotient_c].
      * change (fold_args (n_add complex_num) (Some x) xs = Ok (Some s)) in A. change (lift (W := W) (rbind (fold_args (n_add complex_num) (Some x) xs) (fun v => match v with Some v => Ok (z_div v (k, f_zero)) | None => Err InvalidArgumentCount end)) w = (Ok (z_div s (k, f_zero)), w)). rewrite A. reflexivity.
    + rewrite (c_fun (z_log L) f "log" xs w (or_intror (or_intror (or_intror (or_intror (or_intror (or_introl eq_refl)))))) eq_refl K eq_refl). destruct xs as [|x [|b [|y xs]]]; try (eexists; split; reflexivity).
      * exists (Ok (c_log L x (f_of_Z 10))). split; [|reflexivity]. exists (f_of_Z 10). split; [|reflexivity]. apply (of_Z_exact 10), int_double; lia.
      * cbn [z_log fun_ fn_call]. change (f_is_zero (im b)) with (zero_double (snd b)). destruct (zero_double (snd b)); eexists; split; reflexivity.
  - destruct (small_names nm Hn) as [Lw X]. rewrite forallb_forall in X. unfold complex_call.
    rewrite (named_other f nm "sum" K), (named_other f nm "product" K), (named_other f nm "avg" K), (named_other f nm "log" K) by (apply negb_true_iff; apply X; cbn [In]; tauto).
    apply in_app_or in Hn. destruct Hn as [Hn|Hn].
    + rewrite (c_fun (z_fwd L nm) f nm xs w (own_in nm Hn) eq_refl K Lw). destruct xs as [|x [|y xs]]; (eexists; split; [left; exists nm; split; [exact Hn|]; split; [exact K|]; reflexivity|reflexivity]).
    + apply in_map_iff in Hn. destruct Hn as ([nm' m] & E' & Hn). cbn [fst] in E'. subst nm'. rewrite (c_fun (z_fwd_inv L m nm) f nm xs w (reciprocal_in nm m Hn) eq_refl K Lw).
      destruct xs as [|x [|y xs]]; (eexists; split; [right; exists nm, m; split; [exact Hn|]; split; [exact K|]|reflexivity]); cbn [with_one]; try reflexivity. eexists. split; [reflexivity|apply reciprocal_c].
Qed.

Definition c_known_all (es : list (expr c64)) : Prop := (fix all es := match es with [] => True | e :: es' => complex_known e /\ all es' end) es.
Lemma c_all_said : forall es, Forall (fun e => complex_known e -> forall w, exists r, complex_worth L (get_variable c') e r /\ denote c' e w = (r, w)) es -> c_known_all es ->
  forall w, exists r, complex_all (map (complex_worth L (get_variable c')) es) r /\ sequence (map (denote c') es) w = (r, w).
Proof using.
  clear. intros es He. induction He as [|e es A _ IH]; cbn [c_known_all map sequence complex_all]; [intros _ w; exists (Ok []); split; reflexivity|].
  intros [K Ks] w. destruct (A K w) as (r & R1 & R2). unfold bind at 1. rewrite R2. destruct r as [x|k|].
  - destruct (IH Ks w) as (rs & S1 & S2). unfold bind. rewrite S2. destruct rs as [xs|k|].
    + exists (Ok (x :: xs)). split; [|reflexivity]. exists (Ok x). split; [exact R1|]. exists (Ok xs). split; [exact S1|reflexivity].
    + exists (Err k). split; [|reflexivity]. exists (Ok x). split; [exact R1|]. exists (Err k). split; [exact S1|reflexivity].
    + exists Panic. split; [|reflexivity]. exists (Ok x). split; [exact R1|]. exists Panic. split; [exact S1|reflexivity].
  - exists (Err k). split; [|reflexivity]. exists (Err k). split; [exact R1|reflexivity].
  - exists Panic. split; [|reflexivity]. exists Panic. split; [exact R1|reflexivity].
Qed.
Lemma c_then_said : forall A B (m : M W A) (P : res A -> Prop) (f : A -> M W B) (Q : A -> res B -> Prop) w, (exists r, P r /\ m w = (r, w)) -> (forall x, exists r, Q x r /\ f x w = (r, w)) -> exists r, followed P Q r /\ bind m f w = (r, w).
Proof using.
  clear. intros A B m P f Q w (r & R1 & R2) Hf. unfold bind. rewrite R2. destruct r as [x|k|].
  - destruct (Hf x) as (s & S1 & S2). exists s. split; [|exact S2]. exists (Ok x). auto.
  - exists (Err k). split; [|reflexivity]. exists (Err k). auto.
  - exists Panic. split; [|reflexivity]. exists Panic. auto.
Qed.
Lemma complex_said : forall e, complex_known e -> forall w, exists r, complex_worth L (get_variable c') e r /\ denote c' e w = (r, w).
Proof using H Hs.
  refine (expr_ind' _ (fun e => complex_known e -> forall w, exists r, complex_worth L (get_variable c') e r /\ denote c' e w = (r, w)) _ _ _ _ _ _ _ _ _); cbn [complex_known complex_worth denote].
  - intros v _ w. exists (Ok v). split; reflexivity.
  - intros x _ w. eexists. split; [reflexivity|]. destruct (get_variable c' x); reflexivity.
  - intros x (nm & Hn & K) w. destruct c_lookups as (_ & _ & _ & ->). pose proof (cx_const L rnd E dbg cf d H) as C. assert (A : forall q, map small x = lit q -> forall k, map small k = lit q -> ascii_alike x k) by (intros q A1 k A2; apply fold_alike; change (map small x = map small k); congruence).
    cbn [In] in Hn. pose proof K as K0. unfold named in K0. apply str_eqb_eq in K0. destruct Hn as [<-|[<-|[<-|[]]]]; rewrite K; others K.
    + rewrite (C 0%nat (lit "PI") (f_PI, f_zero) x eq_refl (A _ K0 (lit "PI") eq_refl)). eexists. split; [|reflexivity]. eexists. split; [reflexivity|]. split; [exact PI_rounds|reflexivity].
    + rewrite (C 1%nat (lit "E") (f_E, f_zero) x eq_refl (A _ K0 (lit "E") eq_refl)). eexists. split; [|reflexivity]. eexists. split; [reflexivity|]. split; [exact E_rounds|reflexivity].
    + rewrite (C 2%nat (lit "i") z_i x eq_refl (A _ K0 (lit "i") eq_refl)). eexists. split; [|reflexivity]. eexists. split; [reflexivity|]. split; [reflexivity|exact one_stands].
  - intros g e IH. exact IH.
  - intros f g args IH [Kf Ka] w. apply c_then_said; [exact (c_all_said args IH Ka w)|]. intros xs. exact (c_call_said f xs w Kf).
  - intros u e IH [(nm & Hn & K) Ke] w. apply c_then_said; [exact (IH Ke w)|]. intros x. unfold apply_unary. destruct c_lookups as (_ & -> & _).
    cbn [In] in Hn. destruct Hn as [<-|[<-|[]]]; eexists; (split; [reflexivity|]).
    + rewrite (cx_un L rnd E dbg cf d H 0 _ u eq_refl (named_alike _ _ K eq_refl)), (named_other u _ "-" K) by reflexivity. reflexivity.
    + rewrite (cx_un L rnd E dbg cf d H 1 _ u eq_refl (named_alike _ _ K eq_refl)), K. cbn [u_neg unop uf_call n_neg complex_num]. destruct x as [x1 x2]. unfold z_neg, re, im. cbn [fst snd]. rewrite <- (opposite_is x1), <- (opposite_is x2). reflexivity.
  - intros e u IH [].
  - intros o l r IHl IHr (Ko & Kl & Kr) w. apply c_then_said; [exact (IHl Kl w)|]. intros x. apply c_then_said; [exact (IHr Kr w)|]. intros y. exact (c_operation_said o x y w Ko).
  - intros l r IHl IHr (Kl & Kr) w. apply c_then_said; [exact (IHl Kl w)|]. intros x. apply c_then_said; [exact (IHr Kr w)|]. intros y. exact (c_product_said x y w).
Qed.
End Values.

Lemma complex_vars : forall L vars vars', (forall x, vars x = vars' x) -> forall e r, complex_worth L vars e r -> complex_worth L vars' e r.
Proof.
  intros L vars vars' V. refine (expr_ind' _ (fun e => forall r, complex_worth L vars e r -> complex_worth L vars' e r) _ _ _ _ _ _ _ _ _); cbn [complex_worth]; auto.
  - intros x r. rewrite V. auto.
  - intros f g args IH r. apply followed_more. clear r. induction IH as [|e es A _ IHes]; cbn [map complex_all]; [auto|]. intros r R. apply (followed_more _ _ _ _ _ r A) in R. revert R. apply followed_next. intros x s. apply followed_more. exact IHes.
  - intros u e IH r. apply followed_more. exact IH.
  - intros o l r IHl IHr s S. apply (followed_more _ _ _ _ _ s IHl) in S. revert S. apply followed_next. intros x s'. apply followed_more. exact IHr.
  - intros l r IHl IHr s S. apply (followed_more _ _ _ _ _ s IHl) in S. revert S. apply followed_next. intros x s'. apply followed_more. exact IHr.
Qed.
