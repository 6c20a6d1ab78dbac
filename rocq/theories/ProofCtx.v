(** * What the default contexts contain *)
From Coq Require Import List NArith ZArith Bool Arith Lia String.
From Verif Require Import ModelBase ModelContext ModelText ModelDefault ModelFloat ModelNum ModelOps SpecText ProofText ProofDefault ProofBuild.
Import ListNotations.

Section Ctx.
Context {V W : Type}.
Variable n : num V.
Variable L : libm.
Variable random : W -> f64 * W.
Variable docs : bool.
Variable E : env.
Variable dbg : bool.
Variables p e : V.
Hypothesis Hp : n_from_f64 n f_PI = Some p.
Hypothesis He : n_from_f64 n f_E = Some e.

Notation tr := (trig (V := V) (W := W) n L). Notation trr := (trig_rec (V := V) (W := W) n L).
Notation at_ := (arc_trig (V := V) (W := W) n L). Notation atr := (arc_trig_rec (V := V) (W := W) n L).
Notation fw := (forward (V := V) (W := W) n). Notation fwi := (forward_inv (V := V) (W := W) n).
Definition common_list : list (func V W) :=
  [tr "sin"; tr "cos"; tr "tan"; trr "sin" "csc"; trr "cos" "sec"; trr "tan" "cot"; at_ "asin"; at_ "acos"; op_atan n L;
   atr "asin" "acsc"; atr "acos" "asec"; atr "atan" "acot"; fw "sinh" (m1 L "sinh"); fw "cosh" (m1 L "cosh"); fw "tanh" (m1 L "tanh");
   fwi "csch" (m1 L "sinh"); fwi "sech" (m1 L "cosh"); fwi "coth" (m1 L "tanh"); at_ "asinh"; at_ "acosh"; at_ "atanh";
   atr "asinh" "acsch"; atr "acosh" "asech"; atr "atanh" "acoth"]%string.
Definition checked_funs : list (func V W) :=
  [c_sum n; c_prod n; c_avg n; op_max n; op_min n; c_abs n; op_sqrt n; op_ln n L; op_log n L; op_exp n L; op_floor n; op_ceil n;
   op_trunc n docs; op_round n; op_sign n docs; op_rand n random; op_to_radians n L; op_to_degrees n L] ++ common_list.
Definition unchecked_funs : list (func V W) :=
  [u_sum n; u_avg n; u_prod n; op_max n; op_min n; op_sqrt n; op_ln n L; op_log n L; op_rand n random; op_to_radians n L;
   op_to_degrees n L; op_exp n L] ++ common_list.
Definition checked_bins : list (bfunc V W) := [c_add n; c_sub n; c_mul n; c_div n; op_pow n L; c_mod n].
Definition unchecked_bins : list (bfunc V W) := [u_add n; u_sub n; u_mul n; u_div n; op_pow n L; u_mod n].
Definition checked_uns : list (ufunc V W) := [op_plus; c_neg n; op_factorial n L].
Definition unchecked_uns : list (ufunc V W) := [op_plus; u_neg n; op_factorial n L].

Definition steps_of bins uns funs : list (step V W) :=
  [SConst (lit "PI") p; SConst (lit "E") e] ++ map SBin bins ++ map SUn uns ++ map SFun funs.
Definition ctx_of (bins : list (bfunc V W)) (uns : list (ufunc V W)) (funs : list (func V W)) (cf : config) : dctx V W :=
  DCtx [] [(lit "PI", p); (lit "E", e)] (map (fun f => (fn_name f, f)) funs) (map (fun f => (uf_name f, f)) uns)
       (map (fun f => (bf_name f, f)) bins) cf.

Lemma checked_is_build : forall cf, checked_context n L random docs E dbg cf =
  build (map (perf E dbg) (steps_of checked_bins checked_uns checked_funs)) (with_config cf).
Proof. intros cf. unfold checked_context. cbn [app]. unfold K. cbn [build]. rewrite Hp. destruct (add_constant _ _ _ _ _) as [[| |] d1] eqn:A.
  2,3: cbn [steps_of app map build perf]; rewrite A; reflexivity.
  cbn [build]. rewrite He. cbn [steps_of app map build perf]; rewrite A. reflexivity. Qed.
Lemma unchecked_is_build : forall cf, unchecked_context n L random E dbg cf =
  build (map (perf E dbg) (steps_of unchecked_bins unchecked_uns unchecked_funs)) (with_config cf).
Proof. intros cf. unfold unchecked_context. cbn [app]. unfold K. cbn [build]. rewrite Hp. destruct (add_constant _ _ _ _ _) as [[| |] d1] eqn:A.
  2,3: cbn [steps_of app map build perf]; rewrite A; reflexivity.
  cbn [build]. rewrite He. cbn [steps_of app map build perf]; rewrite A. reflexivity. Qed.

Lemma checked_names : steps_ok (steps_of checked_bins checked_uns checked_funs) = true.
Proof. clear. unfold checked_funs. destruct docs; vm_compute; reflexivity. Qed.
Lemma unchecked_names : steps_ok (steps_of unchecked_bins unchecked_uns unchecked_funs) = true.
Proof. clear. vm_compute. reflexivity. Qed.

Lemma checked_is : forall cf, checked_context n L random docs E dbg cf = Ok (ctx_of checked_bins checked_uns checked_funs cf).
Proof. intros cf. rewrite checked_is_build, build_ctx by apply checked_names. reflexivity. Qed.
Lemma unchecked_is : forall cf, unchecked_context n L random E dbg cf = Ok (ctx_of unchecked_bins unchecked_uns unchecked_funs cf).
Proof. intros cf. rewrite unchecked_is_build, build_ctx by apply unchecked_names. reflexivity. Qed.
End Ctx.

Section Find.
Context {V W : Type}.
Variable E : env.
(** Lookups in such a context. *)
Lemma find_bin : forall p e bins uns funs cf i (f : bfunc V W) q, names_ok (map (fun f => (bf_name f, f)) bins) = true ->
  nth_error bins i = Some f -> ascii_alike q (bf_name f) -> get_binary (to_ctx E (ctx_of p e bins uns funs cf)) q = Some f.
Proof.
  intros. simpl. eapply mget_nth; [assumption| |eassumption]. erewrite map_nth_error by eassumption. reflexivity.
Qed.
Lemma find_un : forall p e bins uns funs cf i (f : ufunc V W) q, names_ok (map (fun f => (uf_name f, f)) uns) = true ->
  nth_error uns i = Some f -> ascii_alike q (uf_name f) -> get_unary (to_ctx E (ctx_of p e bins uns funs cf)) q = Some f.
Proof.
  intros. simpl. eapply mget_nth; [assumption| |eassumption]. erewrite map_nth_error by eassumption. reflexivity.
Qed.
Lemma find_fun : forall p e bins uns funs cf i (f : func V W) q, names_ok (map (fun f => (fn_name f, f)) funs) = true ->
  nth_error funs i = Some f -> ascii_alike q (fn_name f) -> get_function (to_ctx E (ctx_of p e bins uns funs cf)) q = Some f.
Proof.
  intros. simpl. eapply mget_nth; [assumption| |eassumption]. erewrite map_nth_error by eassumption. reflexivity.
Qed.
(** ... and nothing else is found. *)
Lemma found_bin : forall p e bins uns funs cf (f : bfunc V W) q, get_binary (to_ctx E (ctx_of p e bins uns funs cf)) q = Some f ->
  In f bins /\ eq_ignore_case E q (bf_name f) = true.
Proof.
  intros p e bins uns funs cf f q H. simpl in H. apply mget_some in H. destruct H as (k & Hin & Hk). apply key_match_eq in Hk.
  apply in_map_iff in Hin. destruct Hin as (g & Hg & Hin). injection Hg as <- ->. auto.
Qed.
Lemma found_un : forall p e bins uns funs cf (f : ufunc V W) q, get_unary (to_ctx E (ctx_of p e bins uns funs cf)) q = Some f ->
  In f uns /\ eq_ignore_case E q (uf_name f) = true.
Proof.
  intros p e bins uns funs cf f q H. simpl in H. apply mget_some in H. destruct H as (k & Hin & Hk). apply key_match_eq in Hk.
  apply in_map_iff in Hin. destruct Hin as (g & Hg & Hin). injection Hg as <- ->. auto.
Qed.
Lemma found_fun : forall p e bins uns funs cf (f : func V W) q, get_function (to_ctx E (ctx_of p e bins uns funs cf)) q = Some f ->
  In f funs /\ eq_ignore_case E q (fn_name f) = true.
Proof.
  intros p e bins uns funs cf f q H. simpl in H. apply mget_some in H. destruct H as (k & Hin & Hk). apply key_match_eq in Hk.
  apply in_map_iff in Hin. destruct Hin as (g & Hg & Hin). injection Hg as <- ->. auto.
Qed.
End Find.

Section Inv.
Context {V W : Type}.
Variable n : num V.
Variable L : libm.
Variable random : W -> f64 * W.
Variable docs : bool.
Variable E : env.
Variable dbg : bool.
Variable cf : config.

Lemma build_K : forall name x rest (d d' : dctx V W), build (K n E dbg name x :: rest) d = Ok d' -> n_from_f64 n x <> None.
Proof. intros name x rest d d' H. cbn [build] in H. unfold K in H. destruct (n_from_f64 n x); discriminate. Qed.

Lemma checked_inv : forall d, checked_context n L random docs E dbg cf = Ok d ->
  exists p e, n_from_f64 n f_PI = Some p /\ n_from_f64 n f_E = Some e /\
  d = ctx_of p e (checked_bins n L) (checked_uns n L) (checked_funs n L random docs) cf.
Proof.
  intros d H. unfold checked_context in H. cbn [app] in H. pose proof (build_K _ _ _ _ _ H) as HP.
  destruct (n_from_f64 n f_PI) as [p|] eqn:Ep; [|congruence]. destruct (n_from_f64 n f_E) as [e|] eqn:Ee.
  - exists p, e. pose proof (checked_is n L random docs E dbg p e Ep Ee cf) as G. unfold checked_context in G. cbn [app] in G.
    rewrite H in G. injection G as ->. auto.
  - exfalso. cbn [build] in H. destruct (K n E dbg "PI" f_PI (with_config cf)) as [[u|k|] d1]; try discriminate. unfold K in H.
    rewrite Ee in H. discriminate.
Qed.
Lemma unchecked_inv : forall d, unchecked_context n L random E dbg cf = Ok d ->
  exists p e, n_from_f64 n f_PI = Some p /\ n_from_f64 n f_E = Some e /\
  d = ctx_of p e (unchecked_bins n L) (unchecked_uns n L) (unchecked_funs n L random) cf.
Proof.
  intros d H. unfold unchecked_context in H. cbn [app] in H. pose proof (build_K _ _ _ _ _ H) as HP.
  destruct (n_from_f64 n f_PI) as [p|] eqn:Ep; [|congruence]. destruct (n_from_f64 n f_E) as [e|] eqn:Ee.
  - exists p, e. pose proof (unchecked_is n L random E dbg p e Ep Ee cf) as G. unfold unchecked_context in G. cbn [app] in G.
    rewrite H in G. injection G as ->. auto.
  - exfalso. cbn [build] in H. destruct (K n E dbg "PI" f_PI (with_config cf)) as [[u|k|] d1]; try discriminate. unfold K in H.
    rewrite Ee in H. discriminate.
Qed.

(** The operators and functions found under their names. *)
Lemma checked_bin : forall d i f q, checked_context n L random docs E dbg cf = Ok d -> nth_error (checked_bins (W := W) n L) i = Some f ->
  ascii_alike q (bf_name f) -> get_binary (to_ctx E d) q = Some f.
Proof.
  intros d i f q H Hi Hq. apply checked_inv in H. destruct H as (p & e & _ & _ & ->). eapply find_bin; try eassumption. vm_compute. reflexivity.
Qed.
Lemma checked_un : forall d i f q, checked_context n L random docs E dbg cf = Ok d -> nth_error (checked_uns (W := W) n L) i = Some f ->
  ascii_alike q (uf_name f) -> get_unary (to_ctx E d) q = Some f.
Proof.
  intros d i f q H Hi Hq. apply checked_inv in H. destruct H as (p & e & _ & _ & ->). eapply find_un; try eassumption. vm_compute. reflexivity.
Qed.
Lemma checked_fun : forall d i f q, checked_context n L random docs E dbg cf = Ok d -> nth_error (checked_funs n L random docs) i = Some f ->
  ascii_alike q (fn_name f) -> get_function (to_ctx E d) q = Some f.
Proof.
  intros d i f q H Hi Hq. apply checked_inv in H. destruct H as (p & e & _ & _ & ->). eapply find_fun; try eassumption.
  clear. unfold checked_funs. destruct docs; vm_compute; reflexivity.
Qed.
Lemma unchecked_bin : forall d i f q, unchecked_context n L random E dbg cf = Ok d -> nth_error (unchecked_bins (W := W) n L) i = Some f ->
  ascii_alike q (bf_name f) -> get_binary (to_ctx E d) q = Some f.
Proof.
  intros d i f q H Hi Hq. apply unchecked_inv in H. destruct H as (p & e & _ & _ & ->). eapply find_bin; try eassumption. vm_compute. reflexivity.
Qed.
Lemma unchecked_un : forall d i f q, unchecked_context n L random E dbg cf = Ok d -> nth_error (unchecked_uns (W := W) n L) i = Some f ->
  ascii_alike q (uf_name f) -> get_unary (to_ctx E d) q = Some f.
Proof.
  intros d i f q H Hi Hq. apply unchecked_inv in H. destruct H as (p & e & _ & _ & ->). eapply find_un; try eassumption. vm_compute. reflexivity.
Qed.
Lemma unchecked_fun : forall d i f q, unchecked_context n L random E dbg cf = Ok d -> nth_error (unchecked_funs n L random) i = Some f ->
  ascii_alike q (fn_name f) -> get_function (to_ctx E d) q = Some f.
Proof.
  intros d i f q H Hi Hq. apply unchecked_inv in H. destruct H as (p & e & _ & _ & ->). eapply find_fun; try eassumption.
  vm_compute. reflexivity.
Qed.
End Inv.
