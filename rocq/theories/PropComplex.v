(** * C57, C58: complex contexts *)
From Coq Require Import List NArith ZArith QArith Qabs Qpower Qround Bool Lia Lqa String.
From Coq Require Import Floats.SpecFloat.
From Verif Require Import ModelBase ModelContext ModelEvaluator ModelText ModelDefault ModelFloat ModelNum ModelOps ModelComplex ModelStd
  SpecText SpecExpr SpecTokens SpecOps SpecDecimal SpecDouble SpecComplex
  ProofText ProofDefault ProofRpn ProofTokens2 ProofBuild ProofWf ProofDecimal ProofFloat ProofDouble ProofDouble2 ProofComplex.
Import ListNotations.
Local Open Scope Z_scope.

(** ** C57: arithmetic *)

(** A complex context can be made with any configuration; the configuration it gets is that one, with complex numbers on. *)
Theorem C57_constructor : forall W L (rnd : W -> f64 * W) E dbg cf,
  exists d, complex_context L rnd E dbg cf = Ok d /\ cfg (to_ctx E d) = config_with_complex_number cf true /\
    (forall x, get_variable (to_ctx E d) x = None) /\
    (forall x, ascii_alike x (lit "i") -> get_constant (to_ctx E d) x = Some (f_zero, f_one)).
Proof.
  intros W L rnd E dbg cf. exists (cx_ctx L rnd cf). split; [apply complex_is|]. split; [reflexivity|]. split; [reflexivity|].
  intros x Hx. exact (cx_const L rnd E dbg cf _ (complex_is L rnd E dbg cf) 2 (lit "i") z_i x eq_refl Hx).
Qed.
Print Assumptions C57_constructor.

(** The operators give the exact results, if no step of their computation needs rounding. *)
Theorem C57_operators : forall W L (rnd : W -> f64 * W) E dbg cf d, complex_context L rnd E dbg cf = Ok d ->
  forall o x y a b a' b' w, is_complex x a b -> is_complex y a' b' ->
  (ascii_alike o (lit "+") -> a_double (a + a') -> a_double (b + b') ->
     exists z, apply_binary (to_ctx E d) o x y w = (Ok z, w) /\ is_complex z (a + a') (b + b')) /\
  (ascii_alike o (lit "-") -> a_double (a - a') -> a_double (b - b') ->
     exists z, apply_binary (to_ctx E d) o x y w = (Ok z, w) /\ is_complex z (a - a') (b - b')) /\
  (ascii_alike o (lit "*") -> multipliable a b a' b' ->
     exists z, apply_binary (to_ctx E d) o x y w = (Ok z, w) /\ is_complex z (a * a' - b * b') (a * b' + b * a')) /\
  (ascii_alike o (lit "/") -> ~ (a' == 0 /\ b' == 0)%Q -> divisible a b a' b' ->
     exists z, apply_binary (to_ctx E d) o x y w = (Ok z, w) /\
       is_complex z ((a * a' + b * b') / (a' * a' + b' * b')) ((b * a' - a * b') / (a' * a' + b' * b'))) /\
  (ascii_alike o (lit "mod") -> ~ (a' == 0 /\ b' == 0)%Q -> divisible a b a' b' ->
     forall s t, whole_quotient a b a' b' s t -> a_double (inject_Z s) -> a_double (inject_Z t) -> multipliable a' b' (inject_Z s) (inject_Z t) ->
     a_double (a - (a' * inject_Z s - b' * inject_Z t)) -> a_double (b - (a' * inject_Z t + b' * inject_Z s)) ->
     exists z, apply_binary (to_ctx E d) o x y w = (Ok z, w) /\
       is_complex z (a - (a' * inject_Z s - b' * inject_Z t)) (b - (a' * inject_Z t + b' * inject_Z s))) /\
  (ascii_alike o (lit "+") -> apply_unary (to_ctx E d) o x w = (Ok x, w)) /\
  (ascii_alike o (lit "-") -> exists z, apply_unary (to_ctx E d) o x w = (Ok z, w) /\ is_complex z (- a) (- b)).
Proof.
  intros W L rnd E dbg cf d Hd o x y a b a' b' w Hx Hy.
  assert (NZ : ~ (a' == 0 /\ b' == 0)%Q -> z_is_zero y = false). { intros N. apply not_true_iff_false. rewrite (z_zero_exact y a' b' Hy). exact N. }
  unfold apply_binary, apply_unary. repeat match goal with |- _ /\ _ => split end; intros Ho.
  - rewrite (cx_bin L rnd E dbg cf d Hd 0 _ o eq_refl Ho). intros D1 D2. eexists. split; [reflexivity|]. apply z_add_exact; assumption.
  - rewrite (cx_bin L rnd E dbg cf d Hd 1 _ o eq_refl Ho). intros D1 D2. eexists. split; [reflexivity|]. apply z_sub_exact; assumption.
  - rewrite (cx_bin L rnd E dbg cf d Hd 2 _ o eq_refl Ho). intros M. eexists. split; [reflexivity|]. apply z_mul_exact; assumption.
  - rewrite (cx_bin L rnd E dbg cf d Hd 3 _ o eq_refl Ho). intros N D. exists (z_div x y). split; [|apply z_div_exact; assumption].
    cbn [u_div binop bf_call n_is_zero n_div complex_num]. rewrite (NZ N). reflexivity.
  - rewrite (cx_bin L rnd E dbg cf d Hd 4 _ o eq_refl Ho). intros N D s t Q Ds Dt M D1 D2. exists (z_rem x y). split; [|apply z_rem_exact; assumption].
    cbn [u_mod binop bf_call n_is_zero n_rem complex_num]. rewrite (NZ N). reflexivity.
  - rewrite (cx_un L rnd E dbg cf d Hd 0 _ o eq_refl Ho). reflexivity.
  - rewrite (cx_un L rnd E dbg cf d Hd 1 _ o eq_refl Ho). eexists. split; [reflexivity|]. apply z_neg_exact. exact Hx.
Qed.
Print Assumptions C57_operators.

(** ... and so do expressions made of them. *)
Theorem C57_expressions : forall W L (rnd : W -> f64 * W) E dbg cf d, complex_context L rnd E dbg cf = Ok d ->
  forall e a b w, wf (to_ctx E d) e -> complex_value e a b -> exists z, eval_tokens (to_ctx E d) dbg (print e) w = (Ok z, w) /\ is_complex z a b.
Proof.
  intros W L rnd E dbg cf d Hd e a b w Hw Hv. rewrite eval_tokens_print by exact Hw. clear Hw. revert w.
  assert (B : forall o l r a b a' b' u v
      (Hop : forall x y, is_complex x a b -> is_complex y a' b' -> forall w, exists z, apply_binary (to_ctx E d) o x y w = (Ok z, w) /\ is_complex z u v),
    (forall w, exists x, denote (to_ctx E d) l w = (Ok x, w) /\ is_complex x a b) -> (forall w, exists y, denote (to_ctx E d) r w = (Ok y, w) /\ is_complex y a' b') ->
    forall w, exists z, bind (denote (to_ctx E d) l) (fun x => bind (denote (to_ctx E d) r) (fun y => apply_binary (to_ctx E d) o x y)) w = (Ok z, w) /\ is_complex z u v).
  { intros o l r a0 b0 a1 b1 u v Hop Hl Hr w. destruct (Hl w) as (x & A1 & A2), (Hr w) as (y & B1 & B2). unfold bind. rewrite A1, B1. apply Hop; assumption. }
  pose proof (fun o x y a b a' b' w Hx Hy => C57_operators W L rnd E dbg cf d Hd o x y a b a' b' w Hx Hy) as OP. cbv beta in OP.
  induction Hv as [z a b Hz|x Hx|g e a b Hv IH|u e a b Hu Hv IH|u e a b Hu Hv IH|o l r a b c' d' Ho Hl IHl Hr IHr D1 D2|o l r a b c' d' Ho Hl IHl Hr IHr D1 D2
    |o l r a b c' d' Ho Hl IHl Hr IHr M|l r a b c' d' Hl IHl Hr IHr M|o l r a b c' d' Ho Hl IHl Hr IHr N D|o l r a b c' d' s t Ho Hl IHl Hr IHr N D Q Ds Dt M D1 D2];
  cbn [denote].
  - intros w. exists z. split; [reflexivity|exact Hz].
  - intros w. exists z_i. rewrite (cx_const L rnd E dbg cf d Hd 2 (lit "i") z_i x eq_refl Hx). split; [reflexivity|]. split; [exact zero_stands|exact one_stands].
  - exact IH.
  - intros w. destruct (IH w) as (x & A1 & A2). unfold bind. rewrite A1. exists x. split; [|exact A2]. apply (OP u x x a b a b w A2 A2). exact Hu.
  - intros w. destruct (IH w) as (x & A1 & A2). unfold bind. rewrite A1. apply (OP u x x a b a b w A2 A2). exact Hu.
  - apply (B o l r a b c' d'); try assumption. intros x y Hx Hy w. apply (OP o x y a b c' d' w Hx Hy); assumption.
  - apply (B o l r a b c' d'); try assumption. intros x y Hx Hy w. apply (OP o x y a b c' d' w Hx Hy); assumption.
  - apply (B o l r a b c' d'); try assumption. intros x y Hx Hy w. apply (OP o x y a b c' d' w Hx Hy); assumption.
  - apply (B times l r a b c' d'); try assumption. intros x y Hx Hy w. apply (OP times x y a b c' d' w Hx Hy); [apply alike_refl|assumption].
  - apply (B o l r a b c' d'); try assumption. intros x y Hx Hy w. apply (OP o x y a b c' d' w Hx Hy); assumption.
  - apply (B o l r a b c' d'); try assumption. intros x y Hx Hy w. apply (OP o x y a b c' d' w Hx Hy); assumption.
Qed.
Print Assumptions C57_expressions.

(** In particular for whole numbers: sums and differences with parts up to 2^52, products with parts up to 2^26 are exact. *)
Theorem C57_gaussian_integers : forall W L (rnd : W -> f64 * W) E dbg cf d, complex_context L rnd E dbg cf = Ok d ->
  forall x y a b a' b' w, is_complex x (inject_Z a) (inject_Z b) -> is_complex y (inject_Z a') (inject_Z b') ->
  (Z.abs a <= 2 ^ 52 -> Z.abs b <= 2 ^ 52 -> Z.abs a' <= 2 ^ 52 -> Z.abs b' <= 2 ^ 52 ->
    (exists z, apply_binary (to_ctx E d) (lit "+") x y w = (Ok z, w) /\ is_complex z (inject_Z (a + a')) (inject_Z (b + b'))) /\
    (exists z, apply_binary (to_ctx E d) (lit "-") x y w = (Ok z, w) /\ is_complex z (inject_Z (a - a')) (inject_Z (b - b')))) /\
  (Z.abs a <= 2 ^ 26 -> Z.abs b <= 2 ^ 26 -> Z.abs a' <= 2 ^ 26 -> Z.abs b' <= 2 ^ 26 ->
    exists z, apply_binary (to_ctx E d) (lit "*") x y w = (Ok z, w) /\ is_complex z (inject_Z (a * a' - b * b')) (inject_Z (a * b' + b * a'))).
Proof.
  intros W L rnd E dbg cf d Hd x y a b a' b' w Hx Hy.
  assert (CC : forall z p q p' q', (p == p')%Q -> (q == q')%Q -> is_complex z p q -> is_complex z p' q').
  { intros z p q p' q' E1 E2 [H1 H2]. split; [exact (stands_comp _ _ _ E1 H1)|exact (stands_comp _ _ _ E2 H2)]. }
  assert (PL : forall u v, (inject_Z u + inject_Z v == inject_Z (u + v))%Q) by (intros; rewrite inject_Z_plus; reflexivity).
  assert (MI : forall u v, (inject_Z u - inject_Z v == inject_Z (u - v))%Q) by (intros; unfold Z.sub; rewrite inject_Z_plus, inject_Z_opp; reflexivity).
  assert (BP : forall u v, Z.abs u <= 2 ^ 52 -> Z.abs v <= 2 ^ 52 -> Z.abs (u + v) <= 2 ^ 53) by (clear; intros; lia).
  assert (BM : forall u v, Z.abs u <= 2 ^ 52 -> Z.abs v <= 2 ^ 52 -> Z.abs (u - v) <= 2 ^ 53) by (clear; intros; lia).
  split.
  - intros A B A' B'. split.
    + destruct (proj1 (C57_operators W L rnd E dbg cf d Hd (lit "+") x y _ _ _ _ w Hx Hy) (alike_refl _)) as (z & Z1 & Z2);
        [apply (double_comp _ _ (Qeq_sym _ _ (PL _ _))), int_double; lia|apply (double_comp _ _ (Qeq_sym _ _ (PL _ _))), int_double; lia|].
      exists z. split; [exact Z1|]. exact (CC _ _ _ _ _ (PL _ _) (PL _ _) Z2).
    + destruct (proj1 (proj2 (C57_operators W L rnd E dbg cf d Hd (lit "-") x y _ _ _ _ w Hx Hy)) (alike_refl _)) as (z & Z1 & Z2);
        [apply (double_comp _ _ (Qeq_sym _ _ (MI _ _))), int_double; lia|apply (double_comp _ _ (Qeq_sym _ _ (MI _ _))), int_double; lia|].
      exists z. split; [exact Z1|]. exact (CC _ _ _ _ _ (MI _ _) (MI _ _) Z2).
  - intros A B A' B'.
    assert (P : forall u v, Z.abs u <= 2 ^ 26 -> Z.abs v <= 2 ^ 26 -> Z.abs (u * v) <= 2 ^ 52).
    { intros u v Hu Hv. rewrite Z.abs_mul. change (2 ^ 52) with (2 ^ 26 * 2 ^ 26). apply Z.mul_le_mono_nonneg; lia. }
    pose proof (P a a' A A') as P1. pose proof (P b b' B B') as P2. pose proof (P a b' A B') as P3. pose proof (P b a' B A') as P4.
    assert (E1 : (inject_Z a * inject_Z a' - inject_Z b * inject_Z b' == inject_Z (a * a' - b * b'))%Q) by (rewrite <- !inject_Z_mult; apply MI).
    assert (E2 : (inject_Z a * inject_Z b' + inject_Z b * inject_Z a' == inject_Z (a * b' + b * a'))%Q) by (rewrite <- !inject_Z_mult; apply PL).
    destruct (proj1 (proj2 (proj2 (C57_operators W L rnd E dbg cf d Hd (lit "*") x y _ _ _ _ w Hx Hy))) (alike_refl _)) as (z & Z1 & Z2).
    + unfold multipliable. rewrite <- !inject_Z_mult. repeat split; try (apply int_double; eapply Z.le_trans; [eassumption|lia]).
      * apply (double_comp _ _ (Qeq_sym _ _ (MI _ _))), int_double, BM; assumption.
      * apply (double_comp _ _ (Qeq_sym _ _ (PL _ _))), int_double, BP; assumption.
    + exists z. split; [exact Z1|]. exact (CC _ _ _ _ _ E1 E2 Z2).
Qed.
Print Assumptions C57_gaussian_integers.

(** Dividing by zero is [DivisionByZero], and dividing by anything else is not an error. *)
Theorem C57_division_by_zero : forall W L (rnd : W -> f64 * W) E dbg cf d, complex_context L rnd E dbg cf = Ok d ->
  forall o x y a b w, ascii_alike o (lit "/") \/ ascii_alike o (lit "mod") -> is_complex y a b ->
  ((a == 0 /\ b == 0)%Q -> apply_binary (to_ctx E d) o x y w = (Err DivisionByZero, w)) /\
  (~ (a == 0 /\ b == 0)%Q -> exists z, apply_binary (to_ctx E d) o x y w = (Ok z, w)).
Proof.
  intros W L rnd E dbg cf d Hd o x y a b w Ho Hy. pose proof (z_zero_exact y a b Hy) as Z. unfold apply_binary.
  assert (G : exists f, get_binary (to_ctx E d) o = Some f /\ (forall x w, z_is_zero y = true -> bf_call f x y w = (Err DivisionByZero, w)) /\
    (forall x w, z_is_zero y = false -> exists z, bf_call f x y w = (Ok z, w))).
  { destruct Ho as [Ho|Ho].
    - exists (u_div complex_num). split; [exact (cx_bin L rnd E dbg cf d Hd 3 _ o eq_refl Ho)|]. cbn [u_div binop bf_call n_is_zero n_div complex_num].
      split; intros x0 w0 ->; [reflexivity|eexists; reflexivity].
    - exists (u_mod complex_num). split; [exact (cx_bin L rnd E dbg cf d Hd 4 _ o eq_refl Ho)|]. cbn [u_mod binop bf_call n_is_zero n_rem complex_num].
      split; intros x0 w0 ->; [reflexivity|eexists; reflexivity]. }
  destruct G as (f & -> & F1 & F2). split; intros H.
  - apply F1, Z, H.
  - apply F2. apply not_true_iff_false. rewrite Z. exact H.
Qed.
Print Assumptions C57_division_by_zero.

(** Refuted: that a quotient that is a pair of doubles is found. The sum of squares of the divisor may overflow, or vanish. *)
Theorem C57_division_refuted : forall W L (rnd : W -> f64 * W) E dbg cf d, complex_context L rnd E dbg cf = Ok d ->
  forall e, e = 600 \/ e = -600 ->
  exists x t, is_complex x (dyadic 1 e) 0 /\ (forall w, apply_binary (to_ctx E d) (lit "/") x x w = (Ok (S754_nan, t), w)).
Proof.
  intros W L rnd E dbg cf d Hd e He.
  assert (X : forall k, -1000 <= k <= 900 -> stands_for (S754_finite false 4503599627370496 (k - 52)) (dyadic 1 k)).
  { intros k Hk. split; [unfold normal_form; lia|]. unfold dyadic. change (inject_Z 1) with 1%Q. replace k with (52 + (k - 52)) at 1 by lia.
    rewrite (Qpower_plus 2) by discriminate. change (2 ^ 52)%Q with 4503599627370496%Q. change (inject_Z (Z.pos 4503599627370496)) with 4503599627370496%Q. ring. }
  exists (S754_finite false 4503599627370496 (e - 52), f_zero), (if e =? 600 then f_zero else S754_nan). split.
  - split; [apply X; lia|exact zero_stands].
  - intros w. unfold apply_binary. rewrite (cx_bin L rnd E dbg cf d Hd 3 _ (lit "/") eq_refl (alike_refl _)).
    destruct He; subst e; cbn [u_div binop bf_call]; vm_compute; reflexivity.
Qed.
Print Assumptions C57_division_refuted.

(** The hypotheses are met: (1 + 2i) * (3 - i) / 5i = 1 - i. *)
Definition no_clib : clib := Clib (fun _ z => z) (fun x _ => x) (fun x _ => x).
Definition cx_num (a b : Z) : expr c64 := ENum (f_of_Z a, f_of_Z b).
Example C57_case : exists d, complex_context no_clib (fun w : unit => (f_zero, w)) std_env true plain_config = Ok d /\
  let c := to_ctx std_env d in
  let ei := EConst (lit "i") in
  let e := EBin (lit "/") (EBin (lit "*") (EGroup Parenthesis (EBin (lit "+") (cx_num 1 0) (EBin (lit "*") (cx_num 2 0) ei))) (EGroup Parenthesis (EBin (lit "-") (cx_num 3 0) ei)))
             (EGroup Parenthesis (EBin (lit "*") (cx_num 5 0) ei)) in
  wf c e /\ eval_tokens c true (print e) tt = (Ok (f_of_Z 1, f_of_Z (-1)), tt) /\
  eval_tokens c true (print (EBin (lit "*") ei ei)) tt = (Ok (f_of_Z (-1), f_zero), tt) /\
  complex_value (EBin (lit "*") ei ei) (0 * 0 - 1 * 1) (0 * 1 + 1 * 0).
Proof.
  destruct (C57_constructor unit no_clib (fun w => (f_zero, w)) std_env true plain_config) as (d & Hd & _). exists d. split; [exact Hd|].
  rewrite complex_is in Hd. injection Hd as <-. cbv zeta. split; [|split; [|split]].
  - apply wfb_sound. vm_compute. reflexivity.
  - vm_compute. reflexivity.
  - vm_compute. reflexivity.
  - apply CV_mul; [apply alike_refl|apply CV_i, alike_refl|apply CV_i, alike_refl|]. unfold multipliable.
    repeat split; match goal with |- a_double ?q => apply (double_comp (inject_Z (Qfloor q))); [reflexivity|apply int_double; vm_compute; discriminate] end.
Qed.

(** ** C58: functions *)
Lemma fold_ok : forall A (f : A -> A -> A) xs acc, exists z, fold_args (fun u v => Ok (f u v)) (Some acc) xs = Ok (Some z).
Proof. intros A f xs. induction xs as [|x xs IH]; intros acc; cbn [fold_args]; [eexists; reflexivity|apply IH]. Qed.

(** What a function does with its number of arguments. *)
Definition counted {W} (f : func c64 W) : Prop := forall args w,
  (complex_accepts (fn_name f) (List.length args) = false -> fn_call f args w = (Err InvalidArgumentCount, w)) /\
  (complex_accepts (fn_name f) (List.length args) = true -> fst (fn_call f args w) <> Err InvalidArgumentCount).
Lemma one_counted : forall W nm (g : c64 -> res c64), complex_accepts (lit nm) 1 = true -> (forall k, k <> 1%nat -> complex_accepts (lit nm) k = false) ->
  (forall x, g x <> Err InvalidArgumentCount) -> counted (W := W) (fun_ nm (one_arg g)).
Proof.
  intros W nm g H1 H2 Hg args w. cbn [fun_ fn_name fn_call]. destruct args as [|x [|y args]]; cbn [List.length one_arg].
  - rewrite H2 by discriminate. split; [reflexivity|discriminate].
  - rewrite H1. split; [discriminate|]. intros _. apply Hg.
  - rewrite H2 by discriminate. split; [reflexivity|discriminate].
Qed.
Lemma all_counted : forall W L (rnd : W -> f64 * W), Forall counted (cx_funs L rnd).
Proof.
  intros W L rnd.
  assert (F1 : forall m, complex_accepts (lit m) 1 = true -> (forall k, k <> 1%nat -> complex_accepts (lit m) k = false) -> counted (W := W) (z_fwd L m)).
  { intros m H1 H2. apply one_counted; [exact H1|exact H2|discriminate]. }
  assert (F2 : forall m m', complex_accepts (lit m') 1 = true -> (forall k, k <> 1%nat -> complex_accepts (lit m') k = false) -> counted (W := W) (z_fwd_inv L m m')).
  { intros m m' H1 H2. apply one_counted; [exact H1|exact H2|discriminate]. }
  assert (SU : counted (W := W) (u_sum complex_num)).
  { intros [|x args] w; (split; [|]); intros H; try discriminate; try reflexivity. cbn [u_sum fun_ fn_call fst lift].
    change (fold_args (n_add complex_num) None (x :: args)) with (fold_args (fun u v => Ok (z_add u v)) (Some x) args).
    destruct (fold_ok _ z_add args x) as [z ->]. discriminate. }
  assert (PR : counted (W := W) (u_prod complex_num)).
  { intros [|x args] w; (split; [|]); intros H; try discriminate; try reflexivity. cbn [u_prod fun_ fn_call fst lift].
    change (fold_args (n_mul complex_num) None (x :: args)) with (fold_args (fun u v => Ok (z_mul u v)) (Some x) args).
    destruct (fold_ok _ z_mul args x) as [z ->]. discriminate. }
  assert (AV : counted (W := W) (u_avg complex_num)).
  { intros [|x args] w; (split; [|]); intros H; try discriminate; try reflexivity. cbn [u_avg fun_ fn_call fst lift].
    change (fold_args (n_add complex_num) None (x :: args)) with (fold_args (fun u v => Ok (z_add u v)) (Some x) args).
    destruct (fold_ok _ z_add args x) as [z ->]. discriminate. }
  assert (LO : counted (W := W) (z_log L)).
  { intros [|x [|y [|z args]]] w; (split; [|]); intros H; try discriminate; try reflexivity. cbn [z_log fun_ fn_call fst lift]. destruct (negb _); discriminate. }
  assert (RA : counted (W := W) (z_rand rnd)).
  { intros [|x [|y [|z args]]] w; (split; [|]); intros H; try discriminate; try reflexivity; cbn [z_rand fn_call].
    - destruct (rnd w) as [r w1], (rnd w1) as [i w2]. discriminate.
    - unfold bind, lift, try_get_real. destruct (negb _); [discriminate|]. destruct (f_sign_negative _); [discriminate|]. destruct (rnd w) as [r w1], (rnd w1) as [i w2]. discriminate.
    - unfold bind, lift, try_get_real. destruct (negb _); [discriminate|]. destruct (negb _); [discriminate|]. destruct (_ || _); [discriminate|].
      destruct (rnd w) as [r w1], (rnd w1) as [i w2]. discriminate. }
  unfold cx_funs.
  repeat (apply Forall_cons; [first [assumption | apply F1; [reflexivity|intros k Hk; change (complex_accepts _ k) with (k =? 1)%nat; apply Nat.eqb_neq; exact Hk]
    | apply F2; [reflexivity|intros k Hk; change (complex_accepts _ k) with (k =? 1)%nat; apply Nat.eqb_neq; exact Hk]]|]).
  apply Forall_nil.
Qed.
(** The functions are those of [complex_functions], in any case; a wrong number of arguments is [InvalidArgumentCount], a right one is not. *)
Theorem C58_functions : forall W L (rnd : W -> f64 * W) E dbg cf d, complex_context L rnd E dbg cf = Ok d ->
  (forall x f, get_function (to_ctx E d) x = Some f -> exists nm, In nm complex_functions /\ fn_name f = lit nm /\ eq_ignore_case E x (lit nm) = true) /\
  (forall nm x, In nm complex_functions -> ascii_alike x (lit nm) -> exists f, get_function (to_ctx E d) x = Some f) /\
  (forall nm x args w, In nm complex_functions -> ascii_alike x (lit nm) ->
    (complex_accepts (lit nm) (List.length args) = false -> apply_function (to_ctx E d) x args w = (Err InvalidArgumentCount, w)) /\
    (complex_accepts (lit nm) (List.length args) = true -> fst (apply_function (to_ctx E d) x args w) <> Err InvalidArgumentCount)).
Proof.
  intros W L rnd E dbg cf d Hd.
  assert (N : map fn_name (cx_funs L rnd) = map lit complex_functions) by reflexivity.
  assert (G : forall nm x, In nm complex_functions -> ascii_alike x (lit nm) -> exists f, get_function (to_ctx E d) x = Some f /\ fn_name f = lit nm /\ In f (cx_funs L rnd)).
  { intros nm x Hn Hx. assert (I : In (lit nm) (map fn_name (cx_funs L rnd))) by (rewrite N; apply in_map, Hn). apply in_map_iff in I. destruct I as (f & Hf & If). exists f.
    split; [|auto]. destruct (In_nth_error _ _ If) as [i Hi]. apply (cx_fun L rnd E dbg cf d Hd i f x Hi). rewrite Hf. exact Hx. }
  split; [|split].
  - intros x f Hf. destruct (cx_fun_found L rnd E dbg cf d Hd x f Hf) as [I K]. pose proof (in_map fn_name _ _ I) as J. rewrite N in J. apply in_map_iff in J.
    destruct J as (nm & E1 & I1). exists nm. split; [exact I1|]. split; [symmetry; exact E1|]. rewrite E1. exact K.
  - intros nm x Hn Hx. destruct (G nm x Hn Hx) as (f & Hf & _). eauto.
  - intros nm x args w Hn Hx. destruct (G nm x Hn Hx) as (f & Hf & Nf & If). pose proof (proj1 (Forall_forall _ _) (all_counted W L rnd) f If args w) as C.
    rewrite Nf in C. unfold apply_function. rewrite Hf. exact C.
Qed.
Print Assumptions C58_functions.

(** [sum] and [product] are what the context's own [+] and [*] make of the arguments from the left; [avg] is that sum divided, by the
    context's own [/], by the number of arguments. *)
Lemma fold_folded : forall W (c : ctx c64 W) o (f : c64 -> c64 -> c64), (forall x y w, apply_binary c (lit o) x y w = (Ok (f x y), w)) ->
  forall ys x, exists z, fold_args (fun u v => Ok (f u v)) (Some x) ys = Ok (Some z) /\ folded c o x ys z.
Proof.
  intros W c o f H ys. induction ys as [|y ys IH]; intros x; [exists x; split; [reflexivity|constructor]|]. cbn [fold_args]. destruct (IH (f x y)) as (z & F & G). exists z. split; [exact F|]. econstructor; [intros w; apply H|exact G].
Qed.
Theorem C58_sum_product_avg : forall W L (rnd : W -> f64 * W) E dbg cf d, complex_context L rnd E dbg cf = Ok d -> forall x ys,
  (exists s, folded (to_ctx E d) "+" x ys s /\ (forall w, apply_function (to_ctx E d) (lit "sum") (x :: ys) w = (Ok s, w)) /\
     (Z.of_nat (List.length (x :: ys)) <= 2 ^ 53 -> exists k a, is_complex k (inject_Z (Z.of_nat (List.length (x :: ys)))) 0 /\ forall w, apply_binary (to_ctx E d) (lit "/") s k w = (Ok a, w) /\
        apply_function (to_ctx E d) (lit "avg") (x :: ys) w = (Ok a, w))) /\
  (exists p, folded (to_ctx E d) "*" x ys p /\ forall w, apply_function (to_ctx E d) (lit "product") (x :: ys) w = (Ok p, w)).
Proof.
  intros W L rnd E dbg cf d Hd x ys.
  assert (A : forall u v w, apply_binary (to_ctx E d) (lit "+") u v w = (Ok (z_add u v), w)) by (intros u v w; unfold apply_binary; rewrite (cx_bin L rnd E dbg cf d Hd 0 _ (lit "+") eq_refl (alike_refl _)); reflexivity).
  assert (M : forall u v w, apply_binary (to_ctx E d) (lit "*") u v w = (Ok (z_mul u v), w)) by (intros u v w; unfold apply_binary; rewrite (cx_bin L rnd E dbg cf d Hd 2 _ (lit "*") eq_refl (alike_refl _)); reflexivity).
  split.
  - destruct (fold_folded W _ "+" z_add A ys x) as (s & F & G). exists s. split; [exact G|]. split.
    + intros w. unfold apply_function. rewrite (cx_fun L rnd E dbg cf d Hd 0 _ (lit "sum") eq_refl (alike_refl _)). cbn [u_sum fun_ fn_call]. unfold lift.
      change (fold_args (n_add complex_num) None (x :: ys)) with (fold_args (fun u v => Ok (z_add u v)) (Some x) ys). rewrite F. reflexivity.
    + intros B. set (n := Z.of_nat (List.length (x :: ys))) in *. assert (Bn : 1 <= n) by (unfold n; cbn [List.length]; lia). assert (K : is_complex (f_of_Z n, f_zero) (inject_Z n) 0) by (split; [apply of_Z_exact, int_double; lia|exact zero_stands]).
      exists (f_of_Z n, f_zero), (z_div s (f_of_Z n, f_zero)). split; [exact K|]. intros w. split.
      * unfold apply_binary. rewrite (cx_bin L rnd E dbg cf d Hd 3 _ (lit "/") eq_refl (alike_refl _)). cbn [u_div binop bf_call n_is_zero n_div complex_num].
        assert (NZ : z_is_zero (f_of_Z n, f_zero) = false). { apply not_true_iff_false. rewrite (z_zero_exact _ _ _ K). intros [X _]. apply Qeq_bool_iff in X. unfold Qeq_bool, inject_Z in X. cbn [Qnum Qden] in X. apply Zeq_bool_eq in X. lia. }
        rewrite NZ. reflexivity.
      * unfold apply_function. rewrite (cx_fun L rnd E dbg cf d Hd 1 _ (lit "avg") eq_refl (alike_refl _)). cbn [u_avg fun_ fn_call]. unfold lift.
        change (fold_args (n_add complex_num) None (x :: ys)) with (fold_args (fun u v => Ok (z_add u v)) (Some x) ys). rewrite F. reflexivity.
  - destruct (fold_folded W _ "*" z_mul M ys x) as (s & F & G). exists s. split; [exact G|]. intros w. unfold apply_function. rewrite (cx_fun L rnd E dbg cf d Hd 2 _ (lit "product") eq_refl (alike_refl _)). cbn [u_prod fun_ fn_call]. unfold lift.
    change (fold_args (n_mul complex_num) None (x :: ys)) with (fold_args (fun u v => Ok (z_mul u v)) (Some x) ys). rewrite F. reflexivity.
Qed.
Print Assumptions C58_sum_product_avg.
(** avg(1 + 2i, 3, 2 - 5i) = 2 - i *)
Example C58_avg_case : forall d, complex_context no_clib (fun w : unit => (f_zero, w)) std_env true plain_config = Ok d ->
  apply_function (to_ctx std_env d) (lit "avg") [(f_of_Z 1, f_of_Z 2); (f_of_Z 3, f_zero); (f_of_Z 2, f_of_Z (-5))] tt = (Ok (f_of_Z 2, f_of_Z (-1)), tt).
Proof. intros d Hd. rewrite complex_is in Hd. injection Hd as <-. vm_compute. reflexivity. Qed.

(** The reciprocal functions are the reciprocals of the others: the result times what the other gives is 1, if no step needs rounding. *)
Theorem C58_reciprocals : forall W L (rnd : W -> f64 * W) E dbg cf d, complex_context L rnd E dbg cf = Ok d ->
  forall r m, In (r, m) reciprocals -> forall x w, exists y, apply_function (to_ctx E d) (lit m) [x] w = (Ok y, w) /\
  exists z, apply_function (to_ctx E d) (lit r) [x] w = (Ok z, w) /\
  (forall a b, is_complex y a b -> ~ (a == 0 /\ b == 0)%Q -> a_double (a * a) -> a_double (b * b) -> a_double (a * a + b * b) ->
    a_double (a / (a * a + b * b)) -> a_double (- b / (a * a + b * b)) ->
    exists p q, is_complex z p q /\ (p * a - q * b == 1)%Q /\ (p * b + q * a == 0)%Q).
Proof.
  intros W L rnd E dbg cf d Hd r m Hr x w.
  assert (G : exists i j, nth_error (cx_funs L rnd) i = Some (z_fwd L m) /\ nth_error (cx_funs L rnd) j = Some (z_fwd_inv L m r)).
  { unfold reciprocals in Hr. cbn [In] in Hr.
    repeat (destruct Hr as [Hr|Hr]; [injection Hr as <- <-;
      match goal with |- exists i j, _ = Some (z_fwd _ ?m0) /\ _ = Some (z_fwd_inv _ _ ?r0) =>
        first [exists 8%nat, 11%nat; split; reflexivity|exists 9%nat, 12%nat; split; reflexivity|exists 10%nat, 13%nat; split; reflexivity
              |exists 14%nat, 17%nat; split; reflexivity|exists 15%nat, 18%nat; split; reflexivity|exists 16%nat, 19%nat; split; reflexivity
              |exists 20%nat, 23%nat; split; reflexivity|exists 21%nat, 24%nat; split; reflexivity|exists 22%nat, 25%nat; split; reflexivity
              |exists 26%nat, 29%nat; split; reflexivity|exists 27%nat, 30%nat; split; reflexivity|exists 28%nat, 31%nat; split; reflexivity] end|]).
    contradiction. }
  destruct G as (i & j & Gi & Gj). unfold apply_function.
  rewrite (cx_fun L rnd E dbg cf d Hd i _ (lit m) Gi (alike_refl _)), (cx_fun L rnd E dbg cf d Hd j _ (lit r) Gj (alike_refl _)).
  exists (c_method L (lit m) x). split; [reflexivity|]. exists (z_inv (c_method L (lit m) x)). split; [reflexivity|].
  generalize (c_method L (lit m) x). intros y a b [Y1 Y2] N Da Db Dn D1 D2. apply norm_positive in N.
  assert (NS : stands_for (norm_sqr y) (a * a + b * b)) by (apply add_exact; [apply mul_exact; assumption|apply mul_exact; assumption|exact Dn]).
  exists (a / (a * a + b * b))%Q, (- b / (a * a + b * b))%Q. split; [split|split].
  - apply div_exact; assumption.
  - apply div_exact; [apply neg_exact, Y2|exact NS|exact N|exact D2].
  - field. exact N.
  - field. exact N.
Qed.
Print Assumptions C58_reciprocals.

Lemma complex_safe : forall W L (rnd : W -> f64 * W) E dbg cf d, complex_context L rnd E dbg cf = Ok d -> forall t, calls_safely (to_ctx E d) t.
Proof.
  intros W L rnd E dbg cf d Hd.
  assert (B : forall o, calls_safely (to_ctx E d) (TBinary o)).
  { intros o f x y w' Hf. destruct (cx_bin_found L rnd E dbg cf d Hd o f Hf) as [I _]. unfold cx_bins in I. cbn [In] in I.
    repeat (destruct I as [<-|I]; [cbn; try destruct (z_is_zero y); discriminate|]). contradiction. }
  assert (U : forall u, calls_safely (to_ctx E d) (TUnary u)).
  { intros u f x w' Hf. destruct (cx_un_found L rnd E dbg cf d Hd u f Hf) as [I _]. unfold cx_uns in I. cbn [In] in I.
    repeat (destruct I as [<-|I]; [cbn; discriminate|]). contradiction. }
  assert (F : forall n, calls_safely (to_ctx E d) (TFunction n)).
  { intros n f args w' Hf. destruct (cx_fun_found L rnd E dbg cf d Hd n f Hf) as [I _].
    assert (SP : Forall (fun f => forall args w, fst (fn_call f args w) <> Panic) (cx_funs L rnd)).
    { clear. unfold cx_funs. repeat (apply Forall_cons; [|]); try apply Forall_nil;
        try (intros [|x [|y args]] w; cbn; discriminate).
      - intros [|x args] w; [discriminate|]. cbn [u_sum fun_ fn_call fst lift].
        change (fold_args (n_add complex_num) None (x :: args)) with (fold_args (fun u v => Ok (z_add u v)) (Some x) args). destruct (fold_ok _ z_add args x) as [z ->]. discriminate.
      - intros [|x args] w; [discriminate|]. cbn [u_avg fun_ fn_call fst lift].
        change (fold_args (n_add complex_num) None (x :: args)) with (fold_args (fun u v => Ok (z_add u v)) (Some x) args). destruct (fold_ok _ z_add args x) as [z ->]. discriminate.
      - intros [|x args] w; [discriminate|]. cbn [u_prod fun_ fn_call fst lift].
        change (fold_args (n_mul complex_num) None (x :: args)) with (fold_args (fun u v => Ok (z_mul u v)) (Some x) args). destruct (fold_ok _ z_mul args x) as [z ->]. discriminate.
      - intros [|x [|y [|z args]]] w; try discriminate. cbn [z_log fun_ fn_call fst lift]. destruct (negb _); discriminate.
      - intros [|x [|y [|z args]]] w; cbn [z_rand fn_call]; try discriminate.
        + destruct (rnd w) as [r w1], (rnd w1) as [i w2]. discriminate.
        + unfold bind, lift, try_get_real. destruct (negb _); [discriminate|]. destruct (f_sign_negative _); [discriminate|]. destruct (rnd w) as [r w1], (rnd w1) as [i w2]. discriminate.
        + unfold bind, lift, try_get_real. destruct (negb _); [discriminate|]. destruct (negb _); [discriminate|]. destruct (_ || _); [discriminate|].
          destruct (rnd w) as [r w1], (rnd w1) as [i w2]. discriminate. }
    exact (proj1 (Forall_forall _ _) SP f I args w'). }
  intros t. destruct t; try exact I; [apply F|apply B|apply U].
Qed.

(** Nothing in a complex context panics, whatever num_complex's functions and the random numbers give. *)
Theorem C58_never_panics : forall W L (rnd : W -> f64 * W) E dbg cf d, complex_context L rnd E dbg cf = Ok d ->
  forall toks w, fst (eval_tokens (to_ctx E d) dbg toks w) <> Panic.
Proof.
  intros W L rnd E dbg cf d Hd toks w. pose proof (complex_safe W L rnd E dbg cf d Hd) as S. apply eval_no_panic; [|intros _; apply S]. apply Forall_forall. intros t _. apply S.
Qed.
Print Assumptions C58_never_panics.

(** Refuted: that [log(x, b)] is the logarithm of x to the base b. A real base is refused, and of another only the real part counts. *)
Theorem C58_log_refuted : forall W L (rnd : W -> f64 * W) E dbg cf d, complex_context L rnd E dbg cf = Ok d ->
  forall x y w,
  (stands_for (snd y) 0 -> apply_function (to_ctx E d) (lit "log") [x; y] w = (Err InvalidInput, w)) /\
  (forall t, ~ stands_for (snd y) 0 -> ~ stands_for t 0 ->
    exists z, apply_function (to_ctx E d) (lit "log") [x; y] w = (Ok z, w) /\ apply_function (to_ctx E d) (lit "log") [x; (fst y, t)] w = (Ok z, w)).
Proof.
  intros W L rnd E dbg cf d Hd x y w. unfold apply_function. rewrite (cx_fun L rnd E dbg cf d Hd 5 _ (lit "log") eq_refl (alike_refl _)).
  destruct y as [y1 y2]. cbn [z_log fun_ fn_call]. unfold im, re. cbn [fst snd]. split.
  - intros H. rewrite (proj2 (is_zero_exact _ _ H)) by reflexivity. reflexivity.
  - intros t Hy Ht. exists (c_log L x y1).
    assert (NZ : forall u, ~ stands_for u 0 -> f_is_zero u = false) by (intros [s|s| |s p e] Hu; try reflexivity; exfalso; apply Hu; reflexivity).
    rewrite (NZ _ Hy), (NZ _ Ht). split; reflexivity.
Qed.
Print Assumptions C58_log_refuted.

(** [random()] draws twice, once for each part; [random(max)] and [random(min, max)] scale both parts. Negative bounds and bounds
    that are not real are refused. *)
Theorem C58_random : forall W L (rnd : W -> f64 * W) E dbg cf d, complex_context L rnd E dbg cf = Ok d ->
  forall w r w1 i w2, rnd w = (r, w1) -> rnd w1 = (i, w2) ->
  apply_function (to_ctx E d) (lit "random") [] w = (Ok (r, i), w2) /\
  (forall x a b, is_complex x a b ->
    ((0 < a)%Q -> (b == 0)%Q -> apply_function (to_ctx E d) (lit "random") [x] w = (Ok (f_mul r (fst x), f_mul i (fst x)), w2)) /\
    ((a < 0)%Q -> (b == 0)%Q -> apply_function (to_ctx E d) (lit "random") [x] w = (Err NegativeValue, w)) /\
    (~ (b == 0)%Q -> apply_function (to_ctx E d) (lit "random") [x] w = (Err InvalidInput, w)) /\
    (forall y a' b', is_complex y a' b' ->
      ((0 < a)%Q -> (0 < a')%Q -> (b == 0)%Q -> (b' == 0)%Q -> apply_function (to_ctx E d) (lit "random") [x; y] w =
         (Ok (f_add (fst x) (f_mul (f_sub (fst y) (fst x)) r), f_add (fst x) (f_mul (f_sub (fst y) (fst x)) i)), w2)) /\
      ((a < 0)%Q \/ (a' < 0)%Q \/ ~ (b == 0)%Q \/ ~ (b' == 0)%Q -> apply_function (to_ctx E d) (lit "random") [x; y] w = (Err InvalidInput, w)))).
Proof.
  intros W L rnd E dbg cf d Hd w r w1 i w2 H1 H2. unfold apply_function. rewrite (cx_fun L rnd E dbg cf d Hd 6 _ (lit "random") eq_refl (alike_refl _)).
  cbn [z_rand fn_call]. split; [rewrite H1, H2; reflexivity|]. intros x a b [X1 X2].
  assert (SP : forall u q, stands_for u q -> ((0 < q)%Q -> f_sign_negative u = false) /\ ((q < 0)%Q -> f_sign_negative u = true)).
  { intros [s|s| |s m e] q Hu; try contradiction; [simpl in Hu; split; intros G; lra|]. destruct Hu as [_ Hq]. cbn [f_sign_negative]. pose proof (two_pos e) as P2.
    destruct s; split; intros G; try reflexivity; exfalso; revert G Hq; unfold dyadic; intros G Hq.
    - rewrite Hq in G. assert (inject_Z (Z.neg m) < 0)%Q by (change 0%Q with (inject_Z 0); rewrite <- Zlt_Qlt; lia). nra.
    - rewrite Hq in G. assert (0 < inject_Z (Z.pos m))%Q by (change 0%Q with (inject_Z 0); rewrite <- Zlt_Qlt; lia). nra. }
  assert (R1 : forall z p q, is_complex z p q -> (q == 0)%Q -> try_get_real z = Ok (fst z)).
  { intros z p q [_ Hz] Hq. unfold try_get_real, im, re. rewrite (proj2 (is_zero_exact _ _ Hz) Hq). reflexivity. }
  assert (R2 : forall z p q, is_complex z p q -> ~ (q == 0)%Q -> try_get_real z = Err InvalidInput).
  { intros z p q [_ Hz] Hq. unfold try_get_real, im, re. replace (f_is_zero (snd z)) with false; [reflexivity|]. symmetry. apply not_true_iff_false. rewrite (is_zero_exact _ _ Hz). exact Hq. }
  pose proof (conj X1 X2 : is_complex x a b) as X. split; [|split; [|split]].
  - intros Ha Hb. unfold bind, lift. rewrite (R1 x a b X Hb), (proj1 (SP _ _ X1) Ha). cbv beta iota. rewrite H1, H2. reflexivity.
  - intros Ha Hb. unfold bind, lift. rewrite (R1 x a b X Hb), (proj2 (SP _ _ X1) Ha). reflexivity.
  - intros Hb. unfold bind, lift. rewrite (R2 x a b X Hb). reflexivity.
  - intros y a' b' [Y1 Y2]. pose proof (conj Y1 Y2 : is_complex y a' b') as Y. split.
    + intros Ha Ha' Hb Hb'. unfold bind, lift. rewrite (R1 x a b X Hb), (R1 y a' b' Y Hb'), (proj1 (SP _ _ X1) Ha), (proj1 (SP _ _ Y1) Ha'). cbv beta iota. cbn [orb]. rewrite H1, H2. reflexivity.
    + intros Hor. unfold bind, lift. destruct (Qeq_dec b 0) as [Hb|Hb]; [|rewrite (R2 x a b X Hb); reflexivity]. rewrite (R1 x a b X Hb).
      destruct (Qeq_dec b' 0) as [Hb'|Hb']; [|rewrite (R2 y a' b' Y Hb'); reflexivity]. rewrite (R1 y a' b' Y Hb').
      destruct Hor as [G|[G|[G|G]]]; [rewrite (proj2 (SP _ _ X1) G); reflexivity|rewrite (proj2 (SP _ _ Y1) G), orb_true_r; reflexivity|contradiction|contradiction].
Qed.
Print Assumptions C58_random.

(** Refuted: that [random(min, max)] wants min <= max, as in the other contexts; and that it takes all such bounds. *)
Theorem C58_random_refuted : forall W L (rnd : W -> f64 * W) E dbg cf d, complex_context L rnd E dbg cf = Ok d -> forall w,
  (exists z w', apply_function (to_ctx E d) (lit "random") [(f_of_Z 2, f_zero); (f_of_Z 1, f_zero)] w = (Ok z, w')) /\
  apply_function (to_ctx E d) (lit "random") [(f_of_Z (-2), f_zero); (f_of_Z 1, f_zero)] w = (Err InvalidInput, w).
Proof.
  intros W L rnd E dbg cf d Hd w. destruct (rnd w) as [r w1] eqn:H1, (rnd w1) as [i w2] eqn:H2.
  assert (X : forall k, Z.abs k <= 2 ^ 53 -> is_complex (f_of_Z k, f_zero) (inject_Z k) 0).
  { intros k Hk. split; [apply of_Z_exact, int_double, Hk|exact zero_stands]. }
  destruct (C58_random W L rnd E dbg cf d Hd w r w1 i w2 H1 H2) as [_ R]. split.
  - eexists _, _. apply (proj2 (proj2 (proj2 (R _ _ _ (X 2 ltac:(lia))))) _ _ _ (X 1 ltac:(lia))); reflexivity.
  - apply (proj2 (proj2 (proj2 (R _ _ _ (X (-2) ltac:(lia))))) _ _ _ (X 1 ltac:(lia))). left. reflexivity.
Qed.
Print Assumptions C58_random_refuted.
