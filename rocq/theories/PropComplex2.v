(** * C58, continued: which functions of num_complex the functions of a complex context are *)
From Coq Require Import List NArith ZArith QArith Qabs Qpower Qround Bool Lia Lqa String.
From Coq Require Import Floats.SpecFloat.
From Verif Require Import ModelBase ModelContext ModelEvaluator ModelText ModelDefault ModelFloat ModelNum ModelOps ModelComplex ModelStd
  SpecText SpecExpr SpecTokens SpecOps SpecDecimal SpecDouble SpecComplex
  ProofText ProofDefault ProofRpn ProofTokens2 ProofBuild ProofWf ProofDecimal ProofFloat ProofDouble ProofDouble2 ProofComplex PropComplex.
Import ListNotations.
Local Open Scope Z_scope.

Definition library_functions : list string :=
  ["sqrt"; "ln"; "exp"; "sin"; "cos"; "tan"; "asin"; "acos"; "atan"; "sinh"; "cosh"; "tanh"; "asinh"; "acosh"; "atanh"]%string.

(** The fifteen functions are those of the library of the same name; [^] is its [powc]; [log(x)] its logarithm to the base
    10, [log(x, b)] that to the base of the real part of [b], if [b] is not real. *)
Theorem C58_library : forall W L (rnd : W -> f64 * W) E dbg cf d, complex_context L rnd E dbg cf = Ok d -> forall x y w,
  (forall f q, In f library_functions -> ascii_alike q (lit f) -> apply_function (to_ctx E d) q [x] w = (Ok (c_method L (lit f) x), w)) /\
  apply_binary (to_ctx E d) (lit "^") x y w = (Ok (c_powc L x y), w) /\
  (exists ten, stands_for ten 10 /\ apply_function (to_ctx E d) (lit "log") [x] w = (Ok (c_log L x ten), w)) /\
  (~ stands_for (snd y) 0 -> apply_function (to_ctx E d) (lit "log") [x; y] w = (Ok (c_log L x (fst y)), w)).
Proof.
  intros W L rnd E dbg cf d Hd x y w. split; [|split; [|split]].
  - intros f q Hf Hq. assert (G : exists i, nth_error (cx_funs L rnd) i = Some (z_fwd L f)).
    { unfold library_functions in Hf. repeat (destruct Hf as [<-|Hf]; [first [exists 3%nat; reflexivity|exists 4%nat; reflexivity|exists 7%nat; reflexivity|exists 8%nat; reflexivity|exists 9%nat; reflexivity|exists 10%nat; reflexivity
        |exists 14%nat; reflexivity|exists 15%nat; reflexivity|exists 16%nat; reflexivity|exists 20%nat; reflexivity|exists 21%nat; reflexivity|exists 22%nat; reflexivity|exists 26%nat; reflexivity|exists 27%nat; reflexivity|exists 28%nat; reflexivity]|]). destruct Hf. }
    destruct G as (i & Gi). unfold apply_function. rewrite (cx_fun L rnd E dbg cf d Hd i _ q Gi Hq). reflexivity.
  - unfold apply_binary. rewrite (cx_bin L rnd E dbg cf d Hd 5 _ (lit "^") eq_refl (alike_refl _)). reflexivity.
  - exists (f_of_Z 10). split; [apply of_Z_exact, int_double; lia|]. unfold apply_function. rewrite (cx_fun L rnd E dbg cf d Hd 5 _ (lit "log") eq_refl (alike_refl _)). reflexivity.
  - intros Hy. unfold apply_function. rewrite (cx_fun L rnd E dbg cf d Hd 5 _ (lit "log") eq_refl (alike_refl _)). destruct y as [y1 y2]. cbn [z_log fun_ fn_call]. unfold im, re. cbn [fst snd] in *.
    assert (NZ : f_is_zero y2 = false) by (destruct y2; try reflexivity; exfalso; apply Hy; reflexivity). rewrite NZ. reflexivity.
Qed.
Print Assumptions C58_library.

(** Refuted: that [acsc] is the inverse of [csc] where [asin] is that of [sin]. It is the reciprocal of [asin], not [asin] of
    the reciprocal. With a library in which sin(z) = 2z and asin(z) = z/2, csc(acsc(1)) is 1/4. *)
Definition half_lib : clib := Clib (fun m z => if str_eqb m (lit "sin") then (f_mul (f_of_Z 2) (fst z), f_mul (f_of_Z 2) (snd z)) else if str_eqb m (lit "asin") then (f_div (fst z) (f_of_Z 2), f_div (snd z) (f_of_Z 2)) else z) (fun x _ => x) (fun x _ => x).
Theorem C58_acsc_refuted : forall W (rnd : W -> f64 * W) E dbg cf d, complex_context half_lib rnd E dbg cf = Ok d -> forall w, exists one half two quarter,
  is_complex one 1 0 /\ is_complex half (1 # 2) 0 /\ is_complex two 2 0 /\ is_complex quarter (1 # 4) 0 /\
  apply_function (to_ctx E d) (lit "asin") [one] w = (Ok half, w) /\ apply_function (to_ctx E d) (lit "sin") [half] w = (Ok one, w) /\
  apply_function (to_ctx E d) (lit "acsc") [one] w = (Ok two, w) /\ apply_function (to_ctx E d) (lit "csc") [two] w = (Ok quarter, w).
Proof.
  intros W rnd E dbg cf d Hd w. exists (f_of_Z 1, S754_zero false), (f_of 1 (-1), S754_zero false), (f_of_Z 2, S754_zero true), (f_of 1 (-2), S754_zero false).
  assert (S : forall m e s, Z.abs m < 2 ^ 53 -> -1074 <= e <= 971 -> is_complex (f_of m e, S754_zero s) (dyadic m e) 0).
  { intros m e s A B. split; [|reflexivity]. apply normalize_double; [reflexivity|]. exists m, e. split; [lia|]. split; [lia|reflexivity]. }
  split; [exact (S 1 0 false ltac:(lia) ltac:(lia))|]. split; [|split; [|split]].
  - destruct (S 1 (-1) false ltac:(lia) ltac:(lia)) as [A B]. split; [|exact B]. apply (stands_comp _ (dyadic 1 (-1))); [reflexivity|exact A].
  - exact (S 2 0 true ltac:(lia) ltac:(lia)).
  - destruct (S 1 (-2) false ltac:(lia) ltac:(lia)) as [A B]. split; [|exact B]. apply (stands_comp _ (dyadic 1 (-2))); [reflexivity|exact A].
  - unfold apply_function. rewrite (cx_fun half_lib rnd E dbg cf d Hd 14 _ (lit "asin") eq_refl (alike_refl _)), (cx_fun half_lib rnd E dbg cf d Hd 8 _ (lit "sin") eq_refl (alike_refl _)),
      (cx_fun half_lib rnd E dbg cf d Hd 17 _ (lit "acsc") eq_refl (alike_refl _)), (cx_fun half_lib rnd E dbg cf d Hd 11 _ (lit "csc") eq_refl (alike_refl _)).
    repeat match goal with |- _ /\ _ => split end; cbn [z_fwd z_fwd_inv fun_ fn_call one_arg]; unfold lift; f_equal; vm_compute; reflexivity.
Qed.
Print Assumptions C58_acsc_refuted.
