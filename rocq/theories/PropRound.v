(** * C67: arithmetic over [f64] is that of IEEE 754 *)
From Coq Require Import List NArith ZArith QArith Qabs Qpower Bool Lia Lqa String.
From Coq Require Import Floats.SpecFloat.
From Verif Require Import ModelBase ModelContext ModelEvaluator ModelText ModelDefault ModelFloat ModelNum ModelOps ModelStd
  SpecText SpecExpr SpecOps SpecDecimal SpecDouble SpecFunctions SpecRound ProofText ProofDefault ProofRpn ProofBuild ProofCtx ProofWf ProofDecimal ProofFloat ProofDouble ProofDouble2 ProofSnap
  ProofRound ProofRound2 ProofRound3 PropDouble PropFunctions.
Import ListNotations.
Local Open Scope Z_scope.

(** Every operator, on all doubles, infinities and NaN included, gives the result of IEEE 754 (round to nearest, ties to even),
    except that dividing by a zero is an error. *)
Theorem C67_operators : forall W fuel L (rnd : W -> f64 * W) docs E dbg cf d, f64_context fuel L rnd docs E dbg cf d ->
  forall o x y w,
  (ascii_alike o (lit "+") -> exists z, apply_binary (to_ctx E d) o x y w = (Ok z, w) /\ ieee_sum x y z) /\
  (ascii_alike o (lit "-") -> exists z, apply_binary (to_ctx E d) o x y w = (Ok z, w) /\ ieee_difference x y z) /\
  (ascii_alike o (lit "*") -> exists z, apply_binary (to_ctx E d) o x y w = (Ok z, w) /\ ieee_product x y z) /\
  (ascii_alike o (lit "/") -> zero_double y = false -> exists z, apply_binary (to_ctx E d) o x y w = (Ok z, w) /\ ieee_quotient x y z) /\
  (ascii_alike o (lit "mod") -> zero_double y = false -> exists z, apply_binary (to_ctx E d) o x y w = (Ok z, w) /\ ieee_remainder x y z) /\
  (ascii_alike o (lit "/") \/ ascii_alike o (lit "mod") -> zero_double y = true -> apply_binary (to_ctx E d) o x y w = (Err DivisionByZero, w)) /\
  (ascii_alike o (lit "+") -> apply_unary (to_ctx E d) o x w = (Ok x, w)) /\
  (ascii_alike o (lit "-") -> apply_unary (to_ctx E d) o x w = (Ok (opposite x), w)).
Proof.
  intros W fuel L rnd docs E dbg cf d Hd o x y w.
  unfold apply_binary, apply_unary. destruct Hd as [Hd|Hd]; repeat match goal with |- _ /\ _ => split end; intros Ho.
  - rewrite (checked_bin (f64_num fuel) L rnd docs E dbg cf d 0 (c_add (f64_num fuel)) o Hd eq_refl Ho). eexists. split; [reflexivity|]. apply sum_ieee.
  - rewrite (checked_bin (f64_num fuel) L rnd docs E dbg cf d 1 (c_sub (f64_num fuel)) o Hd eq_refl Ho). eexists. split; [reflexivity|]. apply difference_ieee.
  - rewrite (checked_bin (f64_num fuel) L rnd docs E dbg cf d 2 (c_mul (f64_num fuel)) o Hd eq_refl Ho). eexists. split; [reflexivity|]. apply product_ieee.
  - rewrite (checked_bin (f64_num fuel) L rnd docs E dbg cf d 3 (c_div (f64_num fuel)) o Hd eq_refl Ho). intros N. exists (f_div x y). split; [|apply quotient_ieee; assumption].
    cbn [c_div binop bf_call n_is_zero n_cdiv f64_num]. change (f_is_zero y) with (zero_double y). rewrite N. reflexivity.
  - rewrite (checked_bin (f64_num fuel) L rnd docs E dbg cf d 5 (c_mod (f64_num fuel)) o Hd eq_refl Ho). intros N. exists (f_rem x y). split; [|apply remainder_ieee; assumption].
    cbn [c_mod binop bf_call n_is_zero n_crem f64_num]. change (f_is_zero y) with (zero_double y). rewrite N. reflexivity.
  - intros Z. destruct Ho as [Ho|Ho].
    + rewrite (checked_bin (f64_num fuel) L rnd docs E dbg cf d 3 (c_div (f64_num fuel)) o Hd eq_refl Ho). cbn [c_div binop bf_call n_is_zero n_cdiv f64_num]. change (f_is_zero y) with (zero_double y). rewrite Z. reflexivity.
    + rewrite (checked_bin (f64_num fuel) L rnd docs E dbg cf d 5 (c_mod (f64_num fuel)) o Hd eq_refl Ho). cbn [c_mod binop bf_call n_is_zero n_cdiv f64_num]. change (f_is_zero y) with (zero_double y). rewrite Z. reflexivity.
  - rewrite (checked_un (f64_num fuel) L rnd docs E dbg cf d 0 op_plus o Hd eq_refl Ho). reflexivity.
  - rewrite (checked_un (f64_num fuel) L rnd docs E dbg cf d 1 (c_neg (f64_num fuel)) o Hd eq_refl Ho). rewrite <- opposite_is. reflexivity.
  - rewrite (unchecked_bin (f64_num fuel) L rnd E dbg cf d 0 (u_add (f64_num fuel)) o Hd eq_refl Ho). eexists. split; [reflexivity|]. apply sum_ieee.
  - rewrite (unchecked_bin (f64_num fuel) L rnd E dbg cf d 1 (u_sub (f64_num fuel)) o Hd eq_refl Ho). eexists. split; [reflexivity|]. apply difference_ieee.
  - rewrite (unchecked_bin (f64_num fuel) L rnd E dbg cf d 2 (u_mul (f64_num fuel)) o Hd eq_refl Ho). eexists. split; [reflexivity|]. apply product_ieee.
  - rewrite (unchecked_bin (f64_num fuel) L rnd E dbg cf d 3 (u_div (f64_num fuel)) o Hd eq_refl Ho). intros N. exists (f_div x y). split; [|apply quotient_ieee; assumption].
    cbn [u_div binop bf_call n_is_zero n_div f64_num]. change (f_is_zero y) with (zero_double y). rewrite N. reflexivity.
  - rewrite (unchecked_bin (f64_num fuel) L rnd E dbg cf d 5 (u_mod (f64_num fuel)) o Hd eq_refl Ho). intros N. exists (f_rem x y). split; [|apply remainder_ieee; assumption].
    cbn [u_mod binop bf_call n_is_zero n_rem f64_num]. change (f_is_zero y) with (zero_double y). rewrite N. reflexivity.
  - intros Z. destruct Ho as [Ho|Ho].
    + rewrite (unchecked_bin (f64_num fuel) L rnd E dbg cf d 3 (u_div (f64_num fuel)) o Hd eq_refl Ho). cbn [u_div binop bf_call n_is_zero f64_num]. change (f_is_zero y) with (zero_double y). rewrite Z. reflexivity.
    + rewrite (unchecked_bin (f64_num fuel) L rnd E dbg cf d 5 (u_mod (f64_num fuel)) o Hd eq_refl Ho). cbn [u_mod binop bf_call n_is_zero f64_num]. change (f_is_zero y) with (zero_double y). rewrite Z. reflexivity.
  - rewrite (unchecked_un (f64_num fuel) L rnd E dbg cf d 0 op_plus o Hd eq_refl Ho). reflexivity.
  - rewrite (unchecked_un (f64_num fuel) L rnd E dbg cf d 1 (u_neg (f64_num fuel)) o Hd eq_refl Ho). rewrite <- opposite_is. reflexivity.
Qed.
Print Assumptions C67_operators.

(** These descriptions determine the result: there is at most one nearest double of a given sign, and so each operation has
    one result only. *)
Theorem C67_determined :
  (forall q x y, rounds q x -> rounds q y -> negative x = negative y -> x = y) /\
  (forall x y z z', a_number x -> a_number y ->
     (ieee_sum x y z -> ieee_sum x y z' -> z = z') /\ (ieee_difference x y z -> ieee_difference x y z' -> z = z') /\ (ieee_product x y z -> ieee_product x y z' -> z = z') /\
     (ieee_quotient x y z -> ieee_quotient x y z' -> z = z') /\ (ieee_remainder x y z -> ieee_remainder x y z' -> z = z')).
Proof.
  split; [exact rounds_unique|]. intros x y z z' Nx Ny. split; [|split; [|split; [|split]]]; intros A B.
  - exact (sum_unique x y z z' Nx Ny A B).
  - exact (sum_unique x (opposite y) z z' Nx (opposite_number y Ny) A B).
  - exact (product_unique x y z z' Nx Ny A B).
  - exact (quotient_unique x y z z' Nx Ny A B).
  - exact (remainder_unique x y z z' Nx Ny A B).
Qed.
Print Assumptions C67_determined.

(** An expression evaluates to the result of doing its operations one by one, each rounded. *)
Theorem C67_expressions : forall W fuel L (rnd : W -> f64 * W) docs E dbg cf d, f64_context fuel L rnd docs E dbg cf d ->
  forall e z w, wf (to_ctx E d) e -> ieee_value e z -> eval_tokens (to_ctx E d) dbg (print e) w = (Ok z, w).
Proof.
  intros W fuel L rnd docs E dbg cf d Hd e z w Hw Hv. rewrite eval_tokens_print by exact Hw. clear Hw. revert w.
  assert (G : a_number z /\ forall w, denote (to_ctx E d) e w = (Ok z, w)); [|exact (proj2 G)].
  assert (DET := proj2 C67_determined).
  pose proof (fun o a b w => C67_operators W fuel L rnd docs E dbg cf d Hd o a b w) as OP. cbv beta in OP.
  induction Hv as [x Nx|g e x Hv IH|u e x Hu Hv IH|u e x Hu Hv IH|o l r x y z Ho Hl IHl Hr IHr S|o l r x y z Ho Hl IHl Hr IHr S|o l r x y z Ho Hl IHl Hr IHr S|l r x y z Hl IHl Hr IHr S|o l r x y z Ho Hl IHl Hr IHr Hy S|o l r x y z Ho Hl IHl Hr IHr Hy S];
  cbn [denote]; try destruct IH as [IHn IH]; try (destruct IHl as [Nx Dx], IHr as [Ny Dy]; split; [apply (op_number x y z Nx Ny); auto|intros w; unfold bind; rewrite Dx, Dy]).
  - split; [exact Nx|]. intros w. reflexivity.
  - split; [exact IHn|exact IH].
  - split; [exact IHn|]. intros w. unfold bind. rewrite IH. apply (OP u x x w). exact Hu.
  - split; [apply opposite_number; exact IHn|]. intros w. unfold bind. rewrite IH. apply (OP u x x w). exact Hu.
  - destruct (OP o x y w) as (P & _). destruct (P Ho) as (z' & -> & Z'). rewrite (proj1 (DET x y z' z Nx Ny) Z' S). reflexivity.
  - destruct (OP o x y w) as (_ & P & _). destruct (P Ho) as (z' & -> & Z'). rewrite (proj1 (proj2 (DET x y z' z Nx Ny)) Z' S). reflexivity.
  - destruct (OP o x y w) as (_ & _ & P & _). destruct (P Ho) as (z' & -> & Z'). rewrite (proj1 (proj2 (proj2 (DET x y z' z Nx Ny))) Z' S). reflexivity.
  - destruct (OP times x y w) as (_ & _ & P & _). destruct (P (alike_refl _)) as (z' & -> & Z'). rewrite (proj1 (proj2 (proj2 (DET x y z' z Nx Ny))) Z' S). reflexivity.
  - destruct (OP o x y w) as (_ & _ & _ & P & _). destruct (P Ho Hy) as (z' & -> & Z'). rewrite (proj1 (proj2 (proj2 (proj2 (DET x y z' z Nx Ny)))) Z' S). reflexivity.
  - destruct (OP o x y w) as (_ & _ & _ & _ & P & _). destruct (P Ho Hy) as (z' & -> & Z'). rewrite (proj2 (proj2 (proj2 (proj2 (DET x y z' z Nx Ny)))) Z' S). reflexivity.
Qed.
Print Assumptions C67_expressions.

(** How far a rounded result is from the exact one: at most one part in 2^53, or 2^-1075 for results below 2^-1022. *)
Theorem C67_error : forall q z p, rounds q z -> stands_for z p -> (Qabs q < overflow_threshold)%Q ->
  (Qabs (p - q) <= Qabs q * 2 ^ (-53))%Q \/ ((Qabs q < 2 ^ (-1022))%Q /\ (Qabs (p - q) <= 2 ^ (-1075))%Q).
Proof. exact error_bound. Qed.
Print Assumptions C67_error.
(** Rounding does not pass over a double, and leaves doubles alone. *)
Theorem C67_monotonic : forall q z p d, rounds q z -> stands_for z p -> (Qabs q < overflow_threshold)%Q -> a_double d ->
  ((q <= d)%Q -> (p <= d)%Q) /\ ((d <= q)%Q -> (d <= p)%Q) /\ ((q == d)%Q -> (p == d)%Q).
Proof.
  intros q z p d R Hz H D. destruct (rounds_le q z p d R Hz H D) as [A B]. split; [exact A|]. split; [exact B|]. intros E. assert (p <= d)%Q by (apply A; lra). assert (d <= p)%Q by (apply B; lra). lra.
Qed.
Print Assumptions C67_monotonic.

(** ** [sqrt] gives the double nearest to the root (of its argument, snapped to an integer within 1e-10) *)
Theorem C67_sqrt : forall W fuel L (rnd : W -> f64 * W) docs E dbg cf d, f64_context fuel L rnd docs E dbg cf d ->
  forall x w, finite x = true -> exists s z, snapped x s /\ apply_function (to_ctx E d) (lit "sqrt") [x] w = (Ok z, w) /\
  forall q, stands_for s q -> ((0 < q)%Q -> root_rounds q z) /\ ((q < 0)%Q -> z = S754_nan) /\ ((q == 0)%Q -> z = s).
Proof.
  intros W fuel L rnd docs E dbg cf d Hd x w F. exists (f_approx x), (f_sqrt (f_approx x)). split; [apply approx_spec|]. split.
  - unfold apply_function. rewrite (f64_fun W fuel L rnd docs E dbg cf d Hd 6 5 (op_sqrt (f64_num fuel)) (lit "sqrt") eq_refl eq_refl (alike_refl _)).
    cbn [op_sqrt forward fun_ fn_call]. unfold lift, try_to_float. cbn [n_to_f64 f64_num]. destruct x; try discriminate F; reflexivity.
  - intros q Hs. split; [intros P; apply sqrt_rounds; assumption|]. split.
    + intros N. destruct (negative_sign _ _ Hs) as [_ NS]. specialize (NS N). destruct (f_approx x) as [s|s| |s m e]; try contradiction; [simpl in Hs; lra|]. simpl in NS. rewrite NS. reflexivity.
    + intros Z. destruct (stands_zero _ _ Hs Z) as (s & ->). reflexivity.
Qed.
Print Assumptions C67_sqrt.

(** ** Sums, products and averages go from left to right, each step rounded *)
Inductive in_steps (op : f64 -> f64 -> f64 -> Prop) : f64 -> list f64 -> f64 -> Prop :=
| In_steps_nil : forall a, in_steps op a [] a
| In_steps_cons : forall a x xs b z, op a x b -> in_steps op b xs z -> in_steps op a (x :: xs) z.
Lemma fold_steps : forall (f : f64 -> f64 -> f64) (op : f64 -> f64 -> f64 -> Prop), (forall x y, op x y (f x y)) ->
  forall xs a, exists z, fold_args (fun u v => Ok (f u v)) (Some a) xs = Ok (Some z) /\ in_steps op a xs z.
Proof.
  intros f op H xs. induction xs as [|x xs IH]; intros a; [exists a; split; [reflexivity|constructor]|]. cbn [fold_args rbind].
  destruct (IH (f a x)) as (z & Z1 & Z2). exists z. split; [exact Z1|]. apply (In_steps_cons op a x xs (f a x)); [apply H|exact Z2].
Qed.
Theorem C67_sum_product_avg : forall W fuel L (rnd : W -> f64 * W) docs E dbg cf d, f64_context fuel L rnd docs E dbg cf d ->
  forall x xs w,
  (exists z, apply_function (to_ctx E d) (lit "sum") (x :: xs) w = (Ok z, w) /\ in_steps ieee_sum x xs z) /\
  (exists z, apply_function (to_ctx E d) (lit "product") (x :: xs) w = (Ok z, w) /\ in_steps ieee_product x xs z) /\
  (exists s k z, apply_function (to_ctx E d) (lit "avg") (x :: xs) w = (Ok z, w) /\ in_steps ieee_sum x xs s /\ rounds (inject_Z (Z.of_nat (S (List.length xs)))) k /\ ieee_quotient s k z).
Proof.
  intros W fuel L rnd docs E dbg cf d Hd x xs w.
  destruct (fold_steps f_add ieee_sum sum_ieee xs x) as (s & S1 & S2). destruct (fold_steps f_mul ieee_product product_ieee xs x) as (p & P1 & P2).
  split; [exists s; split; [|exact S2]|split; [exists p; split; [|exact P2]|]].
  - unfold apply_function. destruct Hd as [Hd|Hd].
    + rewrite (checked_fun (f64_num fuel) L rnd docs E dbg cf d 0 (c_sum (f64_num fuel)) (lit "sum") Hd eq_refl (alike_refl _)). cbn [c_sum fun_ fn_call]. unfold lift.
      change (fold_args (fun a x0 => or_overflow (n_cadd (f64_num fuel) a x0)) None (x :: xs)) with (fold_args (fun u v => Ok (f_add u v)) (Some x) xs). rewrite S1. reflexivity.
    + rewrite (unchecked_fun (f64_num fuel) L rnd E dbg cf d 0 (u_sum (f64_num fuel)) (lit "sum") Hd eq_refl (alike_refl _)). cbn [u_sum fun_ fn_call]. unfold lift.
      change (fold_args (n_add (f64_num fuel)) None (x :: xs)) with (fold_args (fun u v => Ok (f_add u v)) (Some x) xs). rewrite S1. reflexivity.
  - unfold apply_function. destruct Hd as [Hd|Hd].
    + rewrite (checked_fun (f64_num fuel) L rnd docs E dbg cf d 1 (c_prod (f64_num fuel)) (lit "product") Hd eq_refl (alike_refl _)). cbn [c_prod fun_ fn_call]. unfold lift.
      change (fold_args (fun a x0 => or_overflow (n_cmul (f64_num fuel) a x0)) None (x :: xs)) with (fold_args (fun u v => Ok (f_mul u v)) (Some x) xs). rewrite P1. reflexivity.
    + rewrite (unchecked_fun (f64_num fuel) L rnd E dbg cf d 2 (u_prod (f64_num fuel)) (lit "product") Hd eq_refl (alike_refl _)). cbn [u_prod fun_ fn_call]. unfold lift.
      change (fold_args (n_mul (f64_num fuel)) None (x :: xs)) with (fold_args (fun u v => Ok (f_mul u v)) (Some x) xs). rewrite P1. reflexivity.
  - set (n := Z.of_nat (S (List.length xs))). assert (Pn : 0 < n) by (unfold n; lia).
    assert (NZ : f_is_zero (f_of_Z n) = false).
    { destruct n as [|m|m]; try lia. change (f_of_Z (Zpos m)) with (binary_round prec emax false m 0). apply not_true_iff_false. intros Z.
      pose proof (round_rounds false m 0) as R. destruct (binary_round prec emax false m 0) as [u|u| |u a e]; try discriminate Z.
      assert (V : (dyadic (sgn false m) 0 == inject_Z (Zpos m))%Q) by (unfold dyadic; cbn [sgn]; change (2 ^ 0)%Q with 1%Q; ring).
      assert (M1 : (1 <= inject_Z (Zpos m))%Q) by (change 1%Q with (inject_Z 1); rewrite <- Zle_Qle; lia).
      destruct (threshold_cases (dyadic (sgn false m) 0)) as [H|[H|H]].
      - destruct (rounds_le _ _ 0%Q 1%Q R (Qeq_refl 0) H) as [_ B]; [exists 1, 0; split; [lia|split; [lia|reflexivity]]|]. assert (1 <= 0)%Q by (apply B; lra). lra.
      - pose proof (proj1 (proj2 R) H). discriminate.
      - pose proof threshold_pos. lra. }
    exists s, (f_of_Z n), (f_div s (f_of_Z n)). split; [|split; [exact S2|split; [apply of_Z_rounds|apply quotient_ieee; exact NZ]]].
    unfold apply_function. destruct Hd as [Hd|Hd].
    + rewrite (checked_fun (f64_num fuel) L rnd docs E dbg cf d 2 (c_avg (f64_num fuel)) (lit "avg") Hd eq_refl (alike_refl _)). cbn [c_avg fun_ fn_call]. unfold lift.
      change (fold_args (fun a x0 => or_overflow (n_cadd (f64_num fuel) a x0)) None (x :: xs)) with (fold_args (fun u v => Ok (f_add u v)) (Some x) xs). rewrite S1.
      change ((or_overflow (if f_is_zero (f_of_Z n) then None else Some (f_div s (f_of_Z n))), w) = (Ok (f_div s (f_of_Z n)), w)). rewrite NZ. reflexivity.
    + rewrite (unchecked_fun (f64_num fuel) L rnd E dbg cf d 1 (u_avg (f64_num fuel)) (lit "avg") Hd eq_refl (alike_refl _)). cbn [u_avg fun_ fn_call]. unfold lift.
      change (fold_args (n_add (f64_num fuel)) None (x :: xs)) with (fold_args (fun u v => Ok (f_add u v)) (Some x) xs). rewrite S1. reflexivity.
Qed.
Print Assumptions C67_sum_product_avg.

(** ** So the arithmetic is commutative but not associative, nor distributive *)
Theorem C67_laws : forall W fuel L (rnd : W -> f64 * W) docs E dbg cf d, f64_context fuel L rnd docs E dbg cf d -> forall x y w, a_number x -> a_number y ->
  apply_binary (to_ctx E d) (lit "+") x y w = apply_binary (to_ctx E d) (lit "+") y x w /\ apply_binary (to_ctx E d) (lit "*") x y w = apply_binary (to_ctx E d) (lit "*") y x w.
Proof.
  intros W fuel L rnd docs E dbg cf d Hd x y w Nx Ny.
  destruct (C67_operators W fuel L rnd docs E dbg cf d Hd (lit "+") x y w) as (A & _). destruct (A (alike_refl _)) as (a & -> & A').
  destruct (C67_operators W fuel L rnd docs E dbg cf d Hd (lit "+") y x w) as (B & _). destruct (B (alike_refl _)) as (b & -> & B').
  destruct (C67_operators W fuel L rnd docs E dbg cf d Hd (lit "*") x y w) as (_ & _ & A2 & _). destruct (A2 (alike_refl _)) as (a2 & -> & A2').
  destruct (C67_operators W fuel L rnd docs E dbg cf d Hd (lit "*") y x w) as (_ & _ & B2 & _). destruct (B2 (alike_refl _)) as (b2 & -> & B2').
  assert (S : ieee_sum x y b).
  { destruct x as [s|s| |s m e], y as [t|t| |t n f]; simpl in *; try exact B'; try (intros p q Hp Hq; destruct (B' q p Hq Hp) as (R & R1 & R2 & R3); split; [apply (rounds_comp (q + p)); [ring|exact R]|split; [intros; apply R1; lra|split; [intros; apply R2; lra|intros; rewrite andb_comm; apply R3; lra]]]).
    rewrite B'. destruct s, t; reflexivity. }
  assert (P : ieee_product x y b2).
  { destruct x as [s|s| |s m e], y as [t|t| |t n f]; simpl in *; try exact B2'; try (rewrite xorb_comm; exact B2'); try (intros p q Hp Hq; destruct (B2' q p Hq Hp) as (R & R1); split; [apply (rounds_comp (q * p)); [ring|exact R]|rewrite xorb_comm; exact R1]). }
  split; [rewrite (proj1 (proj2 C67_determined x y a b Nx Ny) A' S); reflexivity|rewrite (proj1 (proj2 (proj2 (proj2 C67_determined x y a2 b2 Nx Ny))) A2' P); reflexivity].
Qed.
Print Assumptions C67_laws.

(** ** Cases *)
Definition f_01 : f64 := f_of 3602879701896397 (-55).
Definition f_02 : f64 := f_of 3602879701896397 (-54).
Definition f_03 : f64 := f_of 5404319552844595 (-54).
(** [(0.1 + 0.2) / 3 - 0.1 mod 0.3] *)
Definition C67_tree : expr f64 :=
  EBin (lit "-") (EBin (lit "/") (EGroup Parenthesis (EBin (lit "+") (ENum f_01) (ENum f_02))) (ENum (f_of_Z 3))) (EBin (lit "mod") (ENum f_01) (ENum f_03)).
Lemma f01_number : forall m e, Z.abs m < 2 ^ 53 -> -1074 <= e <= 971 -> a_number (f_of m e).
Proof. intros m e A B _. exists (dyadic m e). apply of_stands; assumption. Qed.
Example C67_case : rounds (1 # 10) f_01 /\ rounds (2 # 10) f_02 /\ rounds (3 # 10) f_03 /\ wf (to_ctx std_env f_ctx) C67_tree /\
  (exists z, ieee_value C67_tree z /\ fst (eval_tokens (to_ctx std_env f_ctx) true (print C67_tree) tt) = Ok z /\ z = f_of 1 (-56)) /\
  fst (apply_binary (to_ctx std_env f_ctx) (lit "+") f_01 f_02 tt) <> Ok f_03 /\
  f_add (f_add f_01 f_02) f_03 <> f_add f_01 (f_add f_02 f_03) /\
  fst (apply_binary (to_ctx std_env f_ctx) (lit "-") (S754_infinity false) (S754_infinity false) tt) = Ok S754_nan.
Proof.
  assert (S : forall n, Z.abs n <= 2 ^ 53 -> stands_for (f_of_Z n) (inject_Z n)) by (intros n H; apply of_Z_exact, int_double; exact H).
  assert (D : forall n, Z.abs n <= 2 ^ 53 -> rounds (inject_Z n / 10) (f_div (f_of_Z n) (f_of_Z 10))) by (intros n H; apply (div_rounds _ _ _ 10); [apply S; exact H|apply (S 10); lia|discriminate]).
  split; [exact (D 1 ltac:(lia))|]. split; [exact (D 2 ltac:(lia))|]. split; [exact (D 3 ltac:(lia))|]. split; [apply wfb_sound; vm_compute; reflexivity|].
  split; [|split; [vm_compute; discriminate|split; [vm_compute; discriminate|vm_compute; reflexivity]]].
  exists (f_sub (f_div (f_add f_01 f_02) (f_of_Z 3)) (f_rem f_01 f_03)). split; [|split; vm_compute; reflexivity].
  eapply IV_sub; [apply alike_refl| | |apply difference_ieee].
  - eapply IV_div; [apply alike_refl| |apply IV_number; apply f01_number; lia|reflexivity|apply quotient_ieee; reflexivity].
    apply IV_group. eapply IV_add; [apply alike_refl|apply IV_number; apply f01_number; lia|apply IV_number; apply f01_number; lia|apply sum_ieee].
  - eapply IV_mod; [apply alike_refl|apply IV_number; apply f01_number; lia|apply IV_number; apply f01_number; lia|reflexivity|apply remainder_ieee; reflexivity].
Qed.
(** [sqrt(2)] is the double next to the root of 2; [sum(0.1, 0.2, 0.3)] *)
Example C67_sqrt_case : fst (apply_function (to_ctx std_env f_ctx) (lit "sqrt") [f_of_Z 2] tt) = Ok (f_of 6369051672525773 (-52)) /\ root_rounds 2 (f_of 6369051672525773 (-52)) /\
  fst (apply_function (to_ctx std_env f_ctx) (lit "sum") [f_01; f_02; f_03] tt) = Ok (f_of 5404319552844596 (-53)).
Proof.
  split; [vm_compute; reflexivity|]. split; [|vm_compute; reflexivity]. change (f_of 6369051672525773 (-52)) with (f_sqrt (f_of_Z 2)). apply sqrt_rounds; [apply (of_Z_exact 2), int_double; lia|reflexivity].
Qed.
