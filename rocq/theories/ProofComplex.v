(** * Complex contexts: what they contain, exact arithmetic *)
From Coq Require Import List NArith ZArith QArith Qabs Bool Lia Lqa String.
From Coq Require Import Floats.SpecFloat.
From Verif Require Import ModelBase ModelContext ModelText ModelDefault ModelFloat ModelNum ModelOps ModelComplex
  SpecText SpecExpr SpecDecimal SpecDouble SpecComplex ProofText ProofDefault ProofBuild ProofFloat ProofDecimal ProofDouble ProofDouble2.
Import ListNotations.
Local Open Scope Z_scope.

Section Ctx.
Context {W : Type}.
Variable L : clib.
Variable random : W -> f64 * W.
Variable E : env.
Variable dbg : bool.

Definition cx_bins : list (bfunc c64 W) := [u_add complex_num; u_sub complex_num; u_mul complex_num; u_div complex_num; u_mod complex_num; z_pow L].
Definition cx_uns : list (ufunc c64 W) := [op_plus; u_neg complex_num].
Definition cx_funs : list (func c64 W) :=
  [u_sum complex_num; u_avg complex_num; u_prod complex_num; z_fwd L "sqrt"; z_fwd L "ln"; z_log L; z_rand random; z_fwd L "exp";
   z_fwd L "sin"; z_fwd L "cos"; z_fwd L "tan"; z_fwd_inv L "sin" "csc"; z_fwd_inv L "cos" "sec"; z_fwd_inv L "tan" "cot";
   z_fwd L "asin"; z_fwd L "acos"; z_fwd L "atan"; z_fwd_inv L "asin" "acsc"; z_fwd_inv L "acos" "asec"; z_fwd_inv L "atan" "acot";
   z_fwd L "sinh"; z_fwd L "cosh"; z_fwd L "tanh"; z_fwd_inv L "sinh" "csch"; z_fwd_inv L "cosh" "sech"; z_fwd_inv L "tanh" "coth";
   z_fwd L "asinh"; z_fwd L "acosh"; z_fwd L "atanh"; z_fwd_inv L "asinh" "acsch"; z_fwd_inv L "acosh" "asech"; z_fwd_inv L "atanh" "acoth"].
Definition cx_consts : list (str * c64) := [(lit "PI", (f_PI, f_zero)); (lit "E", (f_E, f_zero)); (lit "i", z_i)].
Definition cx_steps : list (step c64 W) := map (fun '(k, v) => SConst k v) cx_consts ++ map SBin cx_bins ++ map SUn cx_uns ++ map SFun cx_funs.
Definition cx_ctx (cf : config) : dctx c64 W :=
  DCtx [] cx_consts (map (fun f => (fn_name f, f)) cx_funs) (map (fun f => (uf_name f, f)) cx_uns) (map (fun f => (bf_name f, f)) cx_bins) (config_with_complex_number cf true).
Lemma cx_names : steps_ok cx_steps = true.
Proof. clear. vm_compute. reflexivity. Qed.
Lemma complex_is : forall cf, complex_context L random E dbg cf = Ok (cx_ctx cf).
Proof.
  intros cf. unfold complex_context. change (build _ _) with (build (map (perf E dbg) cx_steps) (with_config (config_with_complex_number cf true))).
  rewrite build_ctx by apply cx_names. reflexivity.
Qed.

Variable cf : config.
Variable d : dctx c64 W.
Hypothesis Hd : complex_context L random E dbg cf = Ok d.
Notation c := (to_ctx E d).
Lemma find_map : forall A (nm : A -> str) (l : list A) i f q,
  names_ok (map (fun f => (nm f, f)) l) = true -> nth_error l i = Some f -> ascii_alike q (nm f) -> mget (key_match E) (map (fun f => (nm f, f)) l) q = Some f.
Proof. intros A nm l i f q Hn Hi Hq. eapply mget_nth; [exact Hn| |exact Hq]. erewrite map_nth_error by exact Hi. reflexivity. Qed.
Lemma found_map : forall A (nm : A -> str) (l : list A) f q,
  mget (key_match E) (map (fun f => (nm f, f)) l) q = Some f -> In f l /\ eq_ignore_case E q (nm f) = true.
Proof.
  intros A nm l f q H. apply mget_some in H. destruct H as (k & Hin & Hk). apply key_match_eq in Hk.
  apply in_map_iff in Hin. destruct Hin as (g & Hg & Hin). injection Hg as <- ->. auto.
Qed.
Lemma cx_bins_names : names_ok (map (fun f => (bf_name f, f)) cx_bins) = true.
Proof. clear. vm_compute. reflexivity. Qed.
Lemma cx_uns_names : names_ok (map (fun f => (uf_name f, f)) cx_uns) = true.
Proof. clear. vm_compute. reflexivity. Qed.
Lemma cx_funs_names : names_ok (map (fun f => (fn_name f, f)) cx_funs) = true.
Proof. clear. vm_compute. reflexivity. Qed.
Lemma cx_d : d = cx_ctx cf.
Proof. rewrite complex_is in Hd. injection Hd as <-. reflexivity. Qed.
Lemma cx_bin : forall i (f : bfunc c64 W) q, nth_error cx_bins i = Some f -> ascii_alike q (bf_name f) -> get_binary c q = Some f.
Proof. intros i f q Hi Hq. rewrite cx_d. exact (find_map _ bf_name cx_bins i f q cx_bins_names Hi Hq). Qed.
Lemma cx_un : forall i (f : ufunc c64 W) q, nth_error cx_uns i = Some f -> ascii_alike q (uf_name f) -> get_unary c q = Some f.
Proof. intros i f q Hi Hq. rewrite cx_d. exact (find_map _ uf_name cx_uns i f q cx_uns_names Hi Hq). Qed.
Lemma cx_fun : forall i (f : func c64 W) q, nth_error cx_funs i = Some f -> ascii_alike q (fn_name f) -> get_function c q = Some f.
Proof. intros i f q Hi Hq. rewrite cx_d. exact (find_map _ fn_name cx_funs i f q cx_funs_names Hi Hq). Qed.
Lemma cx_const : forall i k v q, nth_error cx_consts i = Some (k, v) -> ascii_alike q k -> get_constant c q = Some v.
Proof.
  intros i k v q Hi Hq. rewrite cx_d. change (get_constant _ q) with (mget (key_match E) cx_consts q).
  eapply mget_nth; [clear; vm_compute; reflexivity|exact Hi|exact Hq].
Qed.
Lemma cx_bin_found : forall q f, get_binary c q = Some f -> In f cx_bins /\ eq_ignore_case E q (bf_name f) = true.
Proof. intros q f H. rewrite cx_d in H. exact (found_map _ bf_name cx_bins f q H). Qed.
Lemma cx_un_found : forall q f, get_unary c q = Some f -> In f cx_uns /\ eq_ignore_case E q (uf_name f) = true.
Proof. intros q f H. rewrite cx_d in H. exact (found_map _ uf_name cx_uns f q H). Qed.
Lemma cx_fun_found : forall q f, get_function c q = Some f -> In f cx_funs /\ eq_ignore_case E q (fn_name f) = true.
Proof. intros q f H. rewrite cx_d in H. exact (found_map _ fn_name cx_funs f q H). Qed.
End Ctx.

(** ** Exact arithmetic *)
Lemma z_add_exact : forall x y a b c d, is_complex x a b -> is_complex y c d -> a_double (a + c) -> a_double (b + d) -> is_complex (z_add x y) (a + c) (b + d).
Proof. intros x y a b c d [X1 X2] [Y1 Y2] H1 H2. split; apply add_exact; assumption. Qed.
Lemma z_sub_exact : forall x y a b c d, is_complex x a b -> is_complex y c d -> a_double (a - c) -> a_double (b - d) -> is_complex (z_sub x y) (a - c) (b - d).
Proof. intros x y a b c d [X1 X2] [Y1 Y2] H1 H2. split; apply sub_exact; assumption. Qed.
Lemma z_mul_exact : forall x y a b c d, is_complex x a b -> is_complex y c d -> multipliable a b c d -> is_complex (z_mul x y) (a * c - b * d) (a * d + b * c).
Proof.
  intros x y a b c d [X1 X2] [Y1 Y2] (H1 & H2 & H3 & H4 & H5 & H6). split.
  - apply sub_exact; [apply mul_exact; assumption|apply mul_exact; assumption|exact H5].
  - apply add_exact; [apply mul_exact; assumption|apply mul_exact; assumption|exact H6].
Qed.
Lemma z_neg_exact : forall x a b, is_complex x a b -> is_complex (z_neg x) (- a) (- b).
Proof. intros x a b [X1 X2]. split; apply neg_exact; assumption. Qed.
Lemma norm_positive : forall c d, ~ (c == 0 /\ d == 0)%Q -> ~ (c * c + d * d == 0)%Q.
Proof.
  intros c d N H. apply N.
  assert (P : forall q : Q, (0 <= q * q)%Q).
  { intros q. destruct (Qlt_le_dec q 0) as [G|G]; [|rewrite <- (Qmult_0_l q); apply Qmult_le_compat_r; exact G].
    assert (X : (q * q == (- q) * (- q))%Q) by ring. rewrite X. rewrite <- (Qmult_0_l (- q)). apply Qmult_le_compat_r; lra. }
  pose proof (P c). pose proof (P d). assert (Zc : (c * c == 0)%Q) by lra. assert (Zd : (d * d == 0)%Q) by lra.
  split; [apply Qmult_integral in Zc; tauto|apply Qmult_integral in Zd; tauto].
Qed.
Lemma z_div_exact : forall x y a b c d, is_complex x a b -> is_complex y c d -> ~ (c == 0 /\ d == 0)%Q -> divisible a b c d ->
  is_complex (z_div x y) ((a * c + b * d) / (c * c + d * d)) ((b * c - a * d) / (c * c + d * d)).
Proof.
  intros x y a b c d [X1 X2] [Y1 Y2] N (H1 & H2 & H3 & H4 & H5 & H6 & H7 & H8 & H9 & H10 & H11). apply norm_positive in N.
  assert (NS : stands_for (norm_sqr y) (c * c + d * d)) by (apply add_exact; [apply mul_exact; assumption|apply mul_exact; assumption|exact H9]).
  split.
  - apply div_exact; [|exact NS|exact N|exact H10]. apply add_exact; [apply mul_exact; assumption|apply mul_exact; assumption|exact H5].
  - apply div_exact; [|exact NS|exact N|exact H11]. apply sub_exact; [apply mul_exact; assumption|apply mul_exact; assumption|exact H6].
Qed.
Lemma z_zero_exact : forall x a b, is_complex x a b -> (z_is_zero x = true <-> (a == 0 /\ b == 0)%Q).
Proof.
  intros x a b [X1 X2]. unfold z_is_zero, re, im. rewrite andb_true_iff, (is_zero_exact _ _ X1), (is_zero_exact _ _ X2). reflexivity.
Qed.

Lemma whole_part : forall x q, stands_for x q -> a_double (inject_Z (truncated q)) -> stands_for (f_sub x (f_rem x f_one)) (inject_Z (truncated q)).
Proof.
  intros x q Hx D. assert (R : stands_for (f_rem x f_one) (q - 1 * inject_Z (truncated (q / 1)))) by (apply rem_exact; [exact Hx|exact one_stands|discriminate]).
  assert (T : truncated (q / 1) = truncated q) by (apply truncated_comp; field). rewrite T in R.
  assert (E : (q - (q - 1 * inject_Z (truncated q)) == inject_Z (truncated q))%Q) by ring.
  apply (stands_comp _ _ _ E). apply sub_exact; [exact Hx|exact R|]. apply (double_comp _ _ (Qeq_sym _ _ E)). exact D.
Qed.
Lemma z_rem_exact : forall x y a b c d s t, is_complex x a b -> is_complex y c d -> ~ (c == 0 /\ d == 0)%Q -> divisible a b c d -> whole_quotient a b c d s t ->
  a_double (inject_Z s) -> a_double (inject_Z t) -> multipliable c d (inject_Z s) (inject_Z t) ->
  a_double (a - (c * inject_Z s - d * inject_Z t)) -> a_double (b - (c * inject_Z t + d * inject_Z s)) ->
  is_complex (z_rem x y) (a - (c * inject_Z s - d * inject_Z t)) (b - (c * inject_Z t + d * inject_Z s)).
Proof.
  intros x y a b c d s t Hx Hy N D (Hs & Ht) Ds Dt M D1 D2. destruct (z_div_exact _ _ _ _ _ _ Hx Hy N D) as [Q1 Q2].
  unfold z_rem. apply z_sub_exact; [exact Hx| |exact D1|exact D2]. apply z_mul_exact; [exact Hy| |exact M].
  subst s t. split; apply whole_part; assumption.
Qed.
