(** * C83: the errors of the decimal context, and its [random] *)
From Coq Require Import List NArith ZArith QArith Qabs Qpower Bool Arith Lia Lqa String.
From Verif Require Import ModelBase ModelContext ModelEvaluator ModelText ModelDefault ModelFloat ModelNum ModelOps ModelDecimal ModelStd
  SpecText SpecExpr SpecOps SpecDecimal ProofText ProofDefault ProofBuild ProofCtx ProofOps3 ProofDecimal ProofDecRef PropDecimal SpecDouble SpecFunctions SpecRound ProofFloat ProofDouble ProofDouble2 ProofRound ProofRound2 ProofRound3 PropDouble PropRandom.
Import ListNotations.
Local Open Scope Z_scope.

(** ** Nothing in decimal_ext.rs returns an error: a value, nothing, or a panic *)
Section NoErr.
Context {D : Type}.
Variable L : dlib D.
Variable fuel : nat.
Definition no_err {A} (m : res A) : Prop := forall k, m <> Err k.
Lemma ne_some : forall x : D, no_err (some x). Proof. intros x k. discriminate. Qed.
Lemma ne_none : no_err (@none D). Proof. intros k. discriminate. Qed.
Lemma ne_panic : forall A, no_err (@Panic A). Proof. intros A k. discriminate. Qed.
Lemma ne_ask : forall o k, (forall x : D, no_err (k x)) -> no_err (ask o k). Proof. intros [x|] k H; [apply H|apply ne_none]. Qed.
Lemma ne_must : forall o k, (forall x : D, no_err (k x)) -> no_err (must o k). Proof. intros [x|] k H; [apply H|apply ne_panic]. Qed.
Lemma ne_call : forall m k, no_err m -> (forall x : D, no_err (k x)) -> no_err (ModelDecimal.call m k).
Proof. intros [[x|]|e|] k Hm H; cbn; [apply H|apply ne_none|exfalso; apply (Hm e); reflexivity|apply ne_panic]. Qed.
Lemma ne_call_must : forall m k, no_err m -> (forall x : D, no_err (k x)) -> no_err (call_must m k).
Proof. intros [[x|]|e|] k Hm H; cbn; [apply H|apply ne_panic|exfalso; apply (Hm e); reflexivity|apply ne_panic]. Qed.
Lemma ne_approx_eq : forall x y d k, (forall b, no_err (k b)) -> no_err (approx_eq L x y d k). Proof. intros x y d k H. unfold approx_eq. apply ne_must. intros z. apply H. Qed.
Lemma ne_approx : forall x, no_err (approx L x). Proof. intros x. unfold approx. apply ne_approx_eq. intros []; apply ne_some. Qed.
Create HintDb ne.
Hint Resolve ne_some ne_none ne_panic ne_approx : ne.
Ltac ne := repeat first [progress auto with ne | apply ne_ask; intros ? | apply ne_must; intros ? | apply ne_call; [|intros ?] | apply ne_call_must; [|intros ?]
  | apply ne_approx_eq; intros ? | match goal with |- no_err (if ?b then _ else _) => destruct b end].
Lemma ne_to_radians : forall x, no_err (to_radians L x). Proof. intros x. unfold to_radians. ne. Qed.
Lemma ne_to_degrees : forall x, no_err (to_degrees L x). Proof. intros x. unfold to_degrees. ne. Qed.
Lemma ne_inv : forall x, no_err (inv L x). Proof. intros x. unfold inv. ne. Qed.
Hint Resolve ne_to_radians ne_to_degrees ne_inv : ne.
Lemma ne_checked_inv : forall x, no_err (ModelDecimal.checked_inv L x). Proof. intros x. unfold ModelDecimal.checked_inv. ne. Qed.
Lemma ne_powi_loop : forall e r b, no_err (powi_loop L r b e). Proof. induction e as [e IH|e IH|]; intros r b; cbn [powi_loop]; ne. Qed.
Hint Resolve ne_checked_inv ne_powi_loop : ne.
Lemma ne_powi : forall x e, no_err (checked_powi L x e). Proof. intros x e. unfold checked_powi. ne. Qed.
Lemma ne_sqrt_loop : forall f s x r, no_err (sqrt_loop L f s x r). Proof. induction f as [|f IH]; intros s x r; cbn [sqrt_loop]; ne. Qed.
Hint Resolve ne_powi ne_sqrt_loop : ne.
Lemma ne_sqrt : forall x, no_err (checked_sqrt L fuel x). Proof. intros x. unfold checked_sqrt. ne. destruct (d_to_f64 L x); ne. Qed.
Lemma ne_cbrt_loop : forall t s x, no_err (cbrt_loop L t s x). Proof. induction t as [|t IH]; intros s x; cbn [cbrt_loop]; ne. Qed.
Hint Resolve ne_sqrt ne_cbrt_loop : ne.
Lemma ne_cbrt : forall x, no_err (checked_cbrt L x). Proof. intros x. unfold checked_cbrt. ne. Qed.
Lemma ne_ln_series : forall t n s r, no_err (ln_series L t n s r). Proof. induction t as [|t IH]; intros n s r; cbn [ln_series]; ne. Qed.
Lemma ne_ln_reduce : forall f a n, no_err (ln_reduce L f a n). Proof. induction f as [|f IH]; intros a n; cbn [ln_reduce]; destruct (d_gt L a (ONE L)); try (intros k; discriminate). destruct (d_div L a (TEN L)); [apply IH|intros k; discriminate]. Qed.
Hint Resolve ne_cbrt ne_ln_series : ne.
Lemma ne_ln_rec : forall d x, no_err (ln_rec L fuel d x).
Proof.
  induction d as [|d IH]; intros x; cbn [ln_rec]; ne; pose proof (ne_ln_reduce fuel x 0) as R; destruct (ln_reduce L fuel x 0) as [[[a n]|]|e|]; ne; exfalso; apply (R e); reflexivity.
Qed.
Lemma ne_ln : forall x, no_err (checked_ln L fuel x). Proof. intros x. apply ne_ln_rec. Qed.
Hint Resolve ne_ln : ne.
Lemma ne_log : forall x b, no_err (checked_log L fuel x b). Proof. intros x b. unfold checked_log. ne. Qed.
Lemma ne_exp_loop : forall t b a r, no_err (exp_loop L t b a r). Proof. induction t as [|t IH]; intros b a r; cbn [exp_loop]; ne. Qed.
Hint Resolve ne_log ne_exp_loop : ne.
Lemma ne_exp : forall x, no_err (checked_exp L x). Proof. intros x. unfold checked_exp. ne. Qed.
Hint Resolve ne_exp : ne.
Lemma ne_powd : forall x e, no_err (checked_powd L fuel x e). Proof. intros x e. unfold checked_powd. destruct (is_integer L e); [destruct (d_to_i64 L e); ne|ne]. Qed.
Lemma ne_sin_series : forall t n xx f r, no_err (sin_series L t n xx f r). Proof. induction t as [|t IH]; intros n xx f r; cbn [sin_series]; ne. Qed.
Lemma ne_cos_series : forall t n xx f r, no_err (cos_series L t n xx f r). Proof. induction t as [|t IH]; intros n xx f r; cbn [cos_series]; ne. Qed.
Hint Resolve ne_powd ne_sin_series ne_cos_series : ne.
Lemma ne_sin : forall x, no_err (checked_sin L x). Proof. intros x. unfold checked_sin. ne. Qed.
Lemma ne_cos : forall x, no_err (checked_cos L x). Proof. intros x. unfold checked_cos. ne. Qed.
Hint Resolve ne_sin ne_cos : ne.
Lemma ne_tan : forall x, no_err (checked_tan L x). Proof. intros x. unfold checked_tan. ne. Qed.
Lemma ne_atan_loop : forall t i s r, no_err (atan_loop L t i s r). Proof. induction t as [|t IH]; intros i s r; cbn [atan_loop]; ne. Qed.
Hint Resolve ne_tan ne_atan_loop : ne.
Lemma ne_atan_rec : forall d x, no_err (atan_rec L d x). Proof. induction d as [|d IH]; intros x; cbn [atan_rec]; ne. Qed.
Lemma ne_atan : forall x, no_err (atan L fuel x). Proof. intros x. apply ne_atan_rec. Qed.
Hint Resolve ne_atan : ne.
Lemma ne_atan2 : forall y x, no_err (atan2 L fuel y x). Proof. intros y x. unfold atan2. ne. Qed.
Lemma ne_asin : forall x, no_err (asin L fuel x). Proof. intros x. unfold asin. ne. Qed.
Lemma ne_acos : forall x, no_err (acos L fuel x). Proof. intros x. unfold acos. ne. Qed.
Lemma ne_sinh : forall x, no_err (sinh L x). Proof. intros x. unfold sinh. ne. Qed.
Lemma ne_cosh : forall x, no_err (cosh L x). Proof. intros x. unfold cosh. ne. Qed.
Hint Resolve ne_atan2 ne_asin ne_acos ne_sinh ne_cosh : ne.
Lemma ne_tanh : forall x, no_err (tanh L x). Proof. intros x. unfold tanh. ne. Qed.
Lemma ne_asinh : forall x, no_err (asinh L fuel x). Proof. intros x. unfold asinh. ne. Qed.
Lemma ne_acosh : forall x, no_err (acosh L fuel x). Proof. intros x. unfold acosh. ne. Qed.
Lemma ne_atanh : forall x, no_err (atanh L fuel x). Proof. intros x. unfold atanh. ne. Qed.
Lemma ne_gamma_sum : forall cs x n f, no_err (gamma_sum L x n cs f). Proof. induction cs as [|c cs IH]; intros x n f; cbn [gamma_sum]; ne. Qed.
Hint Resolve ne_tanh ne_asinh ne_acosh ne_atanh ne_gamma_sum : ne.
Lemma ne_gamma_rec : forall d x, no_err (gamma_rec L fuel d x). Proof. induction d as [|d IH]; intros x; cbn [gamma_rec]; ne. Qed.
Lemma ne_gamma : forall x, no_err (gamma L fuel x). Proof. intros x. apply ne_gamma_rec. Qed.
Hint Resolve ne_gamma : ne.
Lemma ne_fact_loop : forall f r n, no_err (fact_loop L f r n).
Proof. induction f as [|f IH]; intros r n; cbn [fact_loop]; destruct (d_gt L n (ZERO L)); try (intros k; discriminate). destruct (d_mul L r n); [|intros k; discriminate]. destruct (d_sub L n (ONE L)); [apply IH|intros k; discriminate]. Qed.
Lemma ne_factorial : forall x, no_err (checked_factorial L fuel x).
Proof.
  intros x. unfold checked_factorial. ne. pose proof (ne_fact_loop fuel x x0) as R. destruct (fact_loop L fuel x x0) as [[[a n]|]|e|]; ne. exfalso; apply (R e); reflexivity.
Qed.

(** An operation of that kind in the context: its only error is [Overflow]. *)
Lemma over_only : forall m k, no_err m -> or_over (D := D) m = Err k -> k = Overflow.
Proof. intros [[x|]|e|] k H E; cbn in E; try discriminate; [congruence|exfalso; apply (H e); reflexivity]. Qed.
Definition only (ok : nat -> bool) {W} (f : func D W) : Prop := forall args w k, fst (fn_call f args w) = Err k ->
  (k = InvalidArgumentCount /\ ok (List.length args) = false) \/ (k = Overflow /\ ok (List.length args) = true).
Definition counts (ok : nat -> bool) {W} (f : func D W) : Prop := forall args w, ok (List.length args) = false -> fst (fn_call f args w) = Err InvalidArgumentCount.
Lemma only_one : forall W name (m : D -> res D), (forall x k, m x = Err k -> k = Overflow) -> only (fun k => (k =? 1)%nat) (W := W) (fun_ name (one_arg m)).
Proof. intros W name m H args w k Hk. destruct args as [|x [|y args]]; cbn in Hk |- *; [left; split; congruence|right; split; [eapply H; exact Hk|reflexivity]|left; split; congruence]. Qed.
Lemma counts_one : forall W name (m : D -> res D), counts (fun k => (k =? 1)%nat) (W := W) (fun_ name (one_arg m)).
Proof. intros W name m args w H. destruct args as [|x [|y args]]; cbn in *; congruence. Qed.
End NoErr.

(** ** The functions one by one *)
Local Open Scope string_scope. Local Open Scope Z_scope.
Section Funs.
Context {D W : Type}.
Variable L : dlib D.
Variable fuel : nat.
Variable random : W -> f64 * W.

(** Functions that give a value or panic once the number of arguments is right. *)
Definition never_overflow : list string := ["sum"; "product"; "avg"; "max"; "min"; "ceil"; "floor"; "truncate"; "round"]%string.
Definition strict (f : func D W) : Prop := forall args w,
  snd (fn_call f args w) = w /\
  (accepts (fn_name f) (List.length args) = false -> fst (fn_call f args w) = Err InvalidArgumentCount) /\
  (accepts (fn_name f) (List.length args) = true -> forall k, fst (fn_call f args w) = Err k ->
     k = Overflow /\ ~ exists s, In s never_overflow /\ fn_name f = lit s).

Definition overb (s : string) : bool := negb (existsb (fun x => str_eqb (lit s) (lit x)) never_overflow).
Lemma overb_not : forall s, overb s = true -> ~ exists s', In s' never_overflow /\ lit s = lit s'.
Proof.
  intros s H (s' & Hi & He). unfold overb in H. apply negb_true_iff in H. assert (existsb (fun x => str_eqb (lit s) (lit x)) never_overflow = true) as C; [|congruence].
  apply existsb_exists. exists s'. split; [exact Hi|]. rewrite He. apply str_eqb_refl.
Qed.
Lemma one_strict : forall s (m : D -> res D), (forall x k, m x = Err k -> k = Overflow) -> oneb s = true -> overb s = true -> strict (fun_ s (one_arg m)).
Proof.
  intros s m Hm Ho Hv args w. cbn [fun_ fn_call fn_name]. rewrite (oneb_accepts s Ho). split; [reflexivity|]. unfold lift. cbn [fst].
  destruct args as [|x [|y args]]; cbn [one_arg List.length Nat.eqb]; (split; [congruence|]); try congruence.
  intros _ k Hk. split; [exact (Hm x k Hk)|apply overb_not; exact Hv].
Qed.
Lemma total_strict : forall s (m : D -> D), oneb s = true -> strict (fun_ s (one_arg (fun x => Ok (m x)))).
Proof.
  intros s m Ho args w. cbn [fun_ fn_call fn_name]. rewrite (oneb_accepts s Ho). split; [reflexivity|]. unfold lift. cbn [fst].
  destruct args as [|x [|y args]]; cbn [one_arg List.length Nat.eqb]; (split; [congruence|]); congruence.
Qed.
Lemma checked_strict : forall s (m : D -> O), (forall x, no_err (m x)) -> oneb s = true -> overb s = true -> strict (fwd_checked s m).
Proof. intros s m Hm Ho Hv. apply (one_strict s (fun x => or_over (m x))); auto. intros x k. apply over_only, Hm. Qed.
Lemma fold_panic : forall (op : D -> D -> option D) args a, no_err (fold_args (panic_op op) a args) /\ (a <> None \/ args <> [] -> fold_args (panic_op op) a args <> Ok None).
Proof.
  intros op. induction args as [|x args IH]; intros a; cbn [fold_args].
  - split; [intros k; discriminate|]. intros [H|H]; congruence.
  - destruct a as [v|]; [|split; [apply IH|intros _; apply IH; left; discriminate]]. assert (P : (exists z, panic_op op v x = Ok z) \/ panic_op op v x = Panic) by (unfold panic_op; destruct (op v x); eauto). destruct P as [[z ->]| ->]; cbn [rbind].
    + split; [apply IH|intros _; apply IH; left; discriminate].
    + split; [intros k; discriminate|intros _; discriminate].
Qed.
Lemma folded_strict : forall s (op : D -> D -> option D) (k : D -> nat -> res D), (forall v n, no_err (k v n)) -> (forall n, accepts (lit s) n = (1 <=? n)%nat) ->
  strict (fun_ s (fun args => rbind (fold_args (panic_op op) None args) (fun o => match o with Some v => k v (List.length args) | None => Err InvalidArgumentCount end))).
Proof.
  intros s op k Hk Ha args w. cbn [fun_ fn_call fn_name]. rewrite Ha. split; [reflexivity|]. unfold lift. cbn [fst].
  destruct args as [|x args]; [cbn; split; [reflexivity|discriminate]|]. split; [discriminate|]. intros _ e He. exfalso.
  destruct (fold_panic op (x :: args) None) as [A B]. destruct (fold_args (panic_op op) None (x :: args)) as [[v|]|e'|]; cbn [rbind] in He.
  - exact (Hk _ _ _ He).
  - apply B; [right; discriminate|reflexivity].
  - exact (A _ eq_refl).
  - discriminate.
Qed.
Lemma best_strict : forall s better, (forall n, accepts (lit s) n = (2 <=? n)%nat) ->
  strict (fun_ s (fun args => if (List.length args <=? 1)%nat then Err InvalidArgumentCount else or_no_args (best better None args))).
Proof.
  intros s better Ha args w. cbn [fun_ fn_call fn_name]. rewrite Ha. split; [reflexivity|]. unfold lift. cbn [fst].
  destruct args as [|x [|y args]]; cbn [List.length Nat.leb]; try (split; [reflexivity|discriminate]). split; [discriminate|]. intros _ k Hk. exfalso.
  cbn [best] in Hk. pose proof (best_is_some better args (if better y x then y else x)) as H.
  replace (if better y x then Some y else Some x) with (Some (if better y x then y else x)) in Hk by (destruct (better y x); reflexivity).
  destruct (best better (Some (if better y x then y else x)) args); [discriminate|congruence].
Qed.
Lemma two_strict : forall s (m1 : D -> O) (m2 : D -> D -> O), (forall x, no_err (m1 x)) -> (forall x y, no_err (m2 x y)) -> (forall n, accepts (lit s) n = ((1 <=? n) && (n <=? 2))%nat) -> overb s = true ->
  strict (fun_ s (fun args => match args with [x] => or_over (m1 x) | [x; y] => or_over (m2 x y) | _ => Err InvalidArgumentCount end)).
Proof.
  intros s m1 m2 H1 H2 Ha Hv args w. cbn [fun_ fn_call fn_name]. rewrite Ha. split; [reflexivity|]. unfold lift. cbn [fst].
  destruct args as [|x [|y [|z args]]]; cbn [List.length Nat.leb andb]; try (split; [reflexivity|discriminate]); (split; [discriminate|]); intros _ k Hk; (split; [|apply overb_not; exact Hv]);
    eapply over_only; try exact Hk; auto.
Qed.
Lemma ne_seq : forall (m : D -> O) (k : D -> O), (forall x, no_err (m x)) -> (forall x, no_err (k x)) -> forall x, no_err (ModelDecimal.call (m x) k).
Proof. intros m k Hm Hk x. apply ne_call; auto. Qed.
Lemma dec_strict : forall f, In f (dec_funs L fuel random) -> fn_name f <> lit "random" -> strict f.
Proof.
  intros f Hf Hn. unfold dec_funs in Hf. cbn [In] in Hf.
  repeat (destruct Hf as [<-|Hf]; [first
    [ exfalso; apply Hn; reflexivity
    | apply (folded_strict "sum" (d_cadd L) (fun v _ => Ok v)); [intros v n k; discriminate|reflexivity]
    | apply (folded_strict "product" (d_cmul L) (fun v _ => Ok v)); [intros v n k; discriminate|reflexivity]
    | apply (folded_strict "avg" (d_cadd L) (fun v n => panic_op (d_cdiv L) v (int L (Z.of_nat n)))); [intros v n k; unfold panic_op; destruct (d_cdiv L v _); discriminate|reflexivity]
    | apply (best_strict "max"); reflexivity
    | apply (best_strict "min"); reflexivity
    | apply (two_strict "log" (fun x => checked_log L fuel x (TEN L)) (checked_log L fuel)); [intros; apply ne_log|intros; apply ne_log|reflexivity|reflexivity]
    | apply (two_strict "atan" (atan L fuel) (atan2 L fuel)); [intros; apply ne_atan|intros; apply ne_atan2|reflexivity|reflexivity]
    | apply total_strict; reflexivity
    | apply checked_strict; [first [apply ne_cbrt|apply ne_sqrt|apply ne_ln|apply ne_exp|apply ne_to_radians|apply ne_to_degrees|apply ne_atan|apply ne_sinh|apply ne_cosh|apply ne_tanh|apply ne_asinh|apply ne_acosh|apply ne_atanh]|reflexivity|reflexivity]
    | match goal with |- strict (trig_checked _ ?s ?m) => apply (one_strict s (fun x => or_over (ModelDecimal.call (to_radians L x) m))) end;
      [intros x k; apply over_only, ne_call; [apply ne_to_radians|intros z; first [apply ne_sin|apply ne_cos|apply ne_tan|apply ne_asin|apply ne_acos]]|reflexivity|reflexivity]
    | match goal with |- strict (arc_rec_checked _ ?s ?m) => apply (one_strict s (fun x => or_over (ModelDecimal.call (inv L x) m))) end;
      [intros x k; apply over_only, ne_call; [apply ne_inv|intros z; first [apply ne_asin|apply ne_acos]]|reflexivity|reflexivity]
    | match goal with |- strict (fwd_checked_inv _ ?s ?m) => apply (one_strict s (fun x => or_over (ModelDecimal.call (m x) (ModelDecimal.checked_inv L)))) end;
      [intros x k; apply over_only, ne_call; [first [apply ne_sinh|apply ne_cosh|apply ne_tanh|apply ne_acosh|apply ne_atanh]|intros z; apply ne_checked_inv]|reflexivity|reflexivity]
    | match goal with |- strict (fwd_inv _ ?s ?m) => apply (one_strict s (fun x => or_over (ModelDecimal.call (m x) (inv L)))) end;
      [intros x k; apply over_only, ne_call; [apply ne_asinh|intros z; apply ne_inv]|reflexivity|reflexivity] ]|]).
  destruct Hf.
Qed.
End Funs.

(** ** The theorems *)

(** Every function of the decimal context but [random] leaves the random source alone; called with a number of arguments it
    does not accept it fails with [InvalidArgumentCount]; otherwise its only error is [Overflow], and sum, product, avg, max,
    min, ceil, floor, truncate and round have none. *)
Theorem C83_functions : forall D W (L : dlib D) fuel (rnd : W -> f64 * W) E dbg cf d, decimal_context L fuel rnd E dbg cf = Ok d ->
  forall name f args w, get_function (to_ctx E d) name = Some f -> fn_name f <> lit "random" ->
  exists r, apply_function (to_ctx E d) name args w = (r, w) /\ eq_ignore_case E name (fn_name f) = true /\
  (accepts (fn_name f) (List.length args) = false -> r = Err InvalidArgumentCount) /\
  (accepts (fn_name f) (List.length args) = true -> forall k, r = Err k -> k = Overflow /\
     ~ (exists s, In s ["sum"; "product"; "avg"; "max"; "min"; "ceil"; "floor"; "truncate"; "round"] /\ fn_name f = lit s)).
Proof.
  intros D W L fuel rnd E dbg cf d Hd name f args w Hf Hn. unfold apply_function. rewrite Hf. destruct (dec_fun_found L fuel rnd E dbg cf d Hd name f Hf) as [Hi He].
  destruct (dec_strict L fuel rnd f Hi Hn args w) as (A & B & C). destruct (fn_call f args w) as [r w'] eqn:R. cbn [fst snd] in A, B, C. subst w'. exists r. auto.
Qed.
Print Assumptions C83_functions.

(** The operators: no effect, and [Overflow] is the only error; the two signs cannot fail. *)
Theorem C83_operators : forall D W (L : dlib D) fuel (rnd : W -> f64 * W) E dbg cf d, decimal_context L fuel rnd E dbg cf = Ok d ->
  (forall q f x y w, get_binary (to_ctx E d) q = Some f -> exists r, apply_binary (to_ctx E d) q x y w = (r, w) /\ forall k, r = Err k -> k = Overflow) /\
  (forall q f x w, get_unary (to_ctx E d) q = Some f -> exists r, apply_unary (to_ctx E d) q x w = (r, w) /\
     (forall k, r = Err k -> k = Overflow) /\ (uf_notation f = Prefix -> exists y, r = Ok y)).
Proof.
  intros D W L fuel rnd E dbg cf d Hd. unfold apply_binary, apply_unary. split.
  - intros q f x y w Hf. rewrite Hf. destruct (dec_bin_found L fuel rnd E dbg cf d Hd q f Hf) as [Hi _]. unfold dec_bins in Hi. cbn [In] in Hi.
    repeat (destruct Hi as [<-|Hi]; [eexists; split; [reflexivity|]; intros k; apply over_only; first [apply ne_powd|intros k'; unfold opt; discriminate]|]). destruct Hi.
  - intros q f x w Hf. rewrite Hf. destruct (dec_un_found L fuel rnd E dbg cf d Hd q f Hf) as [Hi _]. unfold dec_uns in Hi. cbn [In] in Hi.
    destruct Hi as [<-|[<-|[<-|[]]]]; (eexists; split; [reflexivity|]).
    + split; [discriminate|]. intros _. eexists. reflexivity.
    + split; [discriminate|]. intros _. eexists. reflexivity.
    + split; [intros k; apply over_only, ne_factorial|discriminate].
Qed.
Print Assumptions C83_operators.

(** [random] in the decimal context: bounds are converted to doubles, one number is drawn, and the double so computed is
    converted back. That double is the number drawn; or the rounded product with the bound, from 0 to the bound; or between
    the two bounds, both included. If it has no decimal form the error is [Overflow]. *)
Theorem C83_random : forall D W (L : dlib D) fuel (rnd : W -> f64 * W) E dbg cf d, decimal_context L fuel rnd E dbg cf = Ok d ->
  forall w r u w', rnd w = (r, w') -> stands_for r u -> (0 <= u < 1)%Q ->
  let back z := match d_from_f64 L z with Some v => Ok v | None => Err Overflow end in
  apply_function (to_ctx E d) (lit "random") [] w = (back r, w') /\
  (forall x f q, d_to_f64 L x = Some f -> stands_for f q -> negative f = false ->
     exists z p, apply_function (to_ctx E d) (lit "random") [x] w = (back z, w') /\ rounds (u * q) z /\ stands_for z p /\ (0 <= p <= q)%Q) /\
  (forall x y f g q p, d_to_f64 L x = Some f -> d_to_f64 L y = Some g -> stands_for f q -> stands_for g p -> (q <= p)%Q -> (p - q < overflow_threshold)%Q ->
     exists z v, apply_function (to_ctx E d) (lit "random") [x; y] w = (back z, w') /\ stands_for z v /\ (q <= v <= p)%Q).
Proof.
  intros D W L fuel rnd E dbg cf d Hd w r u w' Hw Hr Hu back. unfold apply_function.
  rewrite (dec_fun L fuel rnd E dbg cf d Hd 9 (op_rand (dec_num L fuel) rnd) (lit "random") eq_refl (alike_refl _)). cbn [op_rand fn_call].
  assert (BK : forall z, or_overflow (n_from_f64 (dec_num L fuel) z) = back z) by (intros z; reflexivity).
  split; [rewrite Hw, BK; reflexivity|]. split.
  - intros x f q Hx Sf Nf. destruct (stands_finite _ _ Sf) as [F1 F2]. exists (f_mul r f).
    assert (Q0 : (0 <= q)%Q) by (destruct (Qlt_le_dec q 0) as [B|B]; [destruct (negative_sign _ _ Sf) as [_ N]; specialize (N B); congruence|exact B]).
    pose proof (mul_rounds r f u q Hr Sf) as R. pose proof (stands_double _ _ Sf) as Dq. pose proof (double_small q Dq) as Tq. rewrite Qabs_pos in Tq by exact Q0.
    assert (T : (Qabs (u * q) < overflow_threshold)%Q) by (rewrite Qabs_pos by nra; nra). destruct (proj1 R T) as (p & Hp & _). exists p. split; [|split; [exact R|split; [exact Hp|]]].
    + unfold bind, lift, try_to_float. cbn [n_to_f64 dec_num]. rewrite Hx, F1, F2. cbn [orb]. change (f_sign_negative f) with (negative f). rewrite Nf, Hw, BK. reflexivity.
    + split; [apply (rounds_le _ _ _ _ R Hp T zero_is_double); nra|apply (rounds_le _ _ _ _ R Hp T Dq); nra].
  - intros x y f g q p Hx Hy Sf Sg H HT. destruct (stands_finite _ _ Sf) as [F1 F2], (stands_finite _ _ Sg) as [G1 G2]. exists (f_add f (f_mul (f_sub g f) r)).
    destruct (proj1 (sampled_range r u f g q p Hr Hu Sf Sg H) HT) as (v & Hv & Hb). exists v. split; [|split; [exact Hv|exact Hb]]. unfold bind, lift, try_to_float. cbn [n_to_f64 dec_num]. rewrite Hx, Hy, F1, F2, G1, G2. cbn [orb].
    assert (LT : f_lt g f = false) by (apply not_true_iff_false; rewrite (lt_exact g f p q Sg Sf); lra). rewrite LT, Hw, BK. reflexivity.
Qed.
Print Assumptions C83_random.

(** Wrong bounds and wrong numbers of arguments are errors, and draw nothing from the source. *)
Theorem C83_random_errors : forall D W (L : dlib D) fuel (rnd : W -> f64 * W) E dbg cf d, decimal_context L fuel rnd E dbg cf = Ok d -> forall w,
  (forall x f, d_to_f64 L x = Some f -> finite f = true -> negative f = true -> apply_function (to_ctx E d) (lit "random") [x] w = (Err NegativeValue, w)) /\
  (forall x y f g q p, d_to_f64 L x = Some f -> d_to_f64 L y = Some g -> stands_for f q -> stands_for g p -> (p < q)%Q -> apply_function (to_ctx E d) (lit "random") [x; y] w = (Err InvalidInput, w)) /\
  (forall args, (2 < List.length args)%nat -> apply_function (to_ctx E d) (lit "random") args w = (Err InvalidArgumentCount, w)).
Proof.
  intros D W L fuel rnd E dbg cf d Hd w. unfold apply_function.
  rewrite (dec_fun L fuel rnd E dbg cf d Hd 9 (op_rand (dec_num L fuel) rnd) (lit "random") eq_refl (alike_refl _)). cbn [op_rand fn_call]. split; [|split].
  - intros x f Hx F N. unfold bind, lift, try_to_float. cbn [n_to_f64 dec_num]. rewrite Hx. destruct f as [s|s| |s m e]; try discriminate F; simpl in N; subst s; reflexivity.
  - intros x y f g q p Hx Hy Sf Sg H. destruct (stands_finite _ _ Sf) as [F1 F2], (stands_finite _ _ Sg) as [G1 G2]. unfold bind, lift, try_to_float. cbn [n_to_f64 dec_num]. rewrite Hx, Hy, F1, F2, G1, G2. cbn [orb].
    rewrite (proj2 (lt_exact g f p q Sg Sf) H). reflexivity.
  - intros args H. destruct args as [|a [|b [|e args]]]; cbn in H; try lia. reflexivity.
Qed.
Print Assumptions C83_random_errors.

(** A source that gives 1/4, then 1/2 (the state counts the draws). *)
Definition quarters (w : bool) : f64 * bool := (f_of 1 (if w then -1 else -2), true).
Definition rand_d : dctx dec bool := unres (decimal_context ref_lib 200 quarters std_env true implicit_config) plain_config.
Definition drawn (args : list dec) (w : bool) : res Q * bool := let (r, w') := apply_function (to_ctx std_env rand_d) (lit "random") args w in
  (match r with Ok x => Ok (Qred (val x)) | Err k => Err k | Panic => Panic end, w').
Example C83_case : drawn [] false = (Ok (1 # 4)%Q, true) /\ drawn [num 6 0] false = (Ok (3 # 2)%Q, true) /\ drawn [num (-5) 1] false = (Err NegativeValue, false) /\
  drawn [num 1 0; num 2 0] true = (Ok (3 # 2)%Q, true) /\ drawn [num 2 0; num 1 0] false = (Err InvalidInput, false) /\ drawn [num 2 0; num 1 0; num 1 0] false = (Err InvalidArgumentCount, false) /\
  ref_fun "sqrt" [num (-1) 0] = Err Overflow /\ ref_fun "ln" [num 0 0] = Err Overflow /\ ref_fun "log" [] = Err InvalidArgumentCount /\ ref_fun "exp" [num 70 0] = Err Overflow.
Proof. vm_compute. repeat split; reflexivity. Qed.
