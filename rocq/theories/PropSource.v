(** * C78: from source text to the number *)
From Coq Require Import List NArith ZArith QArith Qabs Bool Arith Lia Lqa String.
From Coq Require Import Floats.SpecFloat.
From Verif Require Import ModelBase ModelContext ModelEvaluator ModelText ModelDefault ModelFloat ModelNum ModelOps ModelSplit ModelTokenizer ModelParse ModelStd ModelDecimal
  SpecExpr SpecText SpecOps SpecLex SpecParse SpecTokenizer SpecDecimal SpecDouble SpecRound SpecSource
  ProofText ProofDefault ProofBuild ProofCtx ProofWf ProofRpn ProofDecimal ProofDecRef ProofDouble ProofDouble2 ProofRound ProofRound2 ProofRound3 ProofSource
  PropLex PropDouble PropDecimal PropRound.
Import ListNotations.

Local Open Scope Z_scope.

(** Reading the numeral of a number that is a double gives that double. *)
Lemma read_exactly : forall q x, rounds q x -> a_double q -> stands_for x q.
Proof.
  intros q x R D. assert (X : exists y, stands_for y q).
  { destruct D as (M & K & HM & HK & H). exists (binary_normalize prec emax M K false). apply normalize_double; [exact H|]. exists M, K. auto. }
  destruct X as (y & Y). pose proof (exact_rounds y q Y) as RY. destruct (threshold_cases q) as [H|[H|H]].
  - destruct (proj1 R H) as (p & P & _). pose proof (rounds_value q x y p q R RY P Y H) as E. apply (stands_comp x p); [exact E|exact P].
  - rewrite (proj1 (proj2 RY) H) in Y. contradiction.
  - rewrite (proj2 (proj2 RY) H) in Y. contradiction.
Qed.
Lemma weaken : forall V (parse : str -> option V) read (good good' : Q -> Prop) (means means' : V -> Q -> Prop),
  (forall q, good' q -> good q) -> (forall x q, good' q -> means x q -> means' x q) -> reads_numerals parse read good means -> reads_numerals parse read good' means'.
Proof. intros V parse read good good' means means' G M (A & B). split; [|exact B]. intros s q Hs Hq. destruct (A s q Hs (G q Hq)) as [A1 A2]. split; [exact A1|apply M; assumption]. Qed.

Lemma f64_source : forall W fuel L (rnd : W -> f64 * W) docs E dbg cf d, f64_context fuel L rnd docs E dbg cf d ->
  forall parse read good means, reads_numerals parse read good means -> forall e q s ws, exact good e q -> Forall2 source_word (print e) ws -> lexes s ws ->
  text_of (to_ctx E d) parse (with_numbers read e) s.
Proof.
  intros W fuel L rnd docs E dbg cf d [Hd|Hd] parse read good means R e q s ws Hx Hw Hl.
  - apply checked_inv in Hd. destruct Hd as (p & e0 & _ & _ & ->). eapply source_text; [|exact (proj2 R)|exact R|exact Hx|exact Hw|exact Hl]. clear. destruct docs; vm_compute; reflexivity.
  - apply unchecked_inv in Hd. destruct Hd as (p & e0 & _ & _ & ->). eapply source_text; [|exact (proj2 R)|exact R|exact Hx|exact Hw|exact Hl]. clear. vm_compute. reflexivity.
Qed.
Lemma double_source : forall parse read, reads_numerals parse read a_double stands_for -> forall e q, exact a_double e q -> double_value (with_numbers read e) q.
Proof.
  intros parse read (R & _) e q H. induction H; cbn [with_numbers]; try (econstructor; eauto using alike_refl; fail).
  - constructor. apply (R s q); assumption.
Qed.

(** The text of an arithmetic expression, with spaces anywhere between the words, evaluates in a context over [f64] to the double that
    stands for its exact value, if that value and the values of its parts are doubles. *)
Theorem C78_double : forall W fuel L (rnd : W -> f64 * W) docs E dbg cf d, f64_context fuel L rnd docs E dbg cf d ->
  forall parse read, reads_numerals parse read (fun _ => True) (fun x q => rounds q x) ->
  forall e q s ws w, exact a_double e q -> wf (to_ctx E d) (with_numbers read e) -> Forall2 source_word (print e) ws -> lexes s ws ->
  exists z, eval (to_ctx E d) parse dsplitter dbg s w = (Ok z, w) /\ stands_for z q.
Proof.
  intros W fuel L rnd docs E dbg cf d Hd parse read R e q s ws w Hx Hwf Hw Hl.
  assert (R' : reads_numerals parse read a_double stands_for).
  { apply (weaken _ parse read (fun _ => True) a_double (fun x q => rounds q x) stands_for); [auto|intros x v D H; exact (read_exactly v x H D)|exact R]. }
  pose proof (f64_source W fuel L rnd docs E dbg cf d Hd parse read a_double stands_for R' e q s ws Hx Hw Hl) as T.
  rewrite (C16_eval_text _ _ _ parse dbg _ s w Hwf T), <- (eval_tokens_print (to_ctx E d) dbg _ w Hwf).
  apply (C55_expressions W fuel L rnd docs E dbg cf d Hd); [exact Hwf|]. apply (double_source parse read R' e q Hx).
Qed.
Print Assumptions C78_double.

(** Whatever its numbers: it evaluates to what IEEE 754 says, doing its operations one by one on its numerals rounded to doubles. *)
Theorem C78_rounded : forall W fuel L (rnd : W -> f64 * W) docs E dbg cf d, f64_context fuel L rnd docs E dbg cf d ->
  forall parse read, reads_numerals parse read (fun _ => True) (fun x q => rounds q x) ->
  forall e q z s ws w, exact (fun _ => True) e q -> wf (to_ctx E d) (with_numbers read e) -> Forall2 source_word (print e) ws -> lexes s ws ->
  ieee_value (with_numbers read e) z -> eval (to_ctx E d) parse dsplitter dbg s w = (Ok z, w).
Proof.
  intros W fuel L rnd docs E dbg cf d Hd parse read R e q z s ws w Hx Hwf Hw Hl Hz.
  pose proof (f64_source W fuel L rnd docs E dbg cf d Hd parse read _ _ R e q s ws Hx Hw Hl) as T.
  rewrite (C16_eval_text _ _ _ parse dbg _ s w Hwf T), <- (eval_tokens_print (to_ctx E d) dbg _ w Hwf).
  apply (C67_expressions W fuel L rnd docs E dbg cf d Hd); assumption.
Qed.
Print Assumptions C78_rounded.

(** In the decimal context: to the decimal of its exact value, if the values of its parts are representable. *)
Lemma decimal_source : forall D (value : D -> Q) parse read, reads_numerals parse read representable (fun x q => (value x == q)%Q) ->
  forall e q, exact representable e q -> decimal_value value (with_numbers read e) q.
Proof.
  intros D value parse read (R & _) e q H. induction H; cbn [with_numbers].
  - constructor. apply (R s q); assumption.
  - constructor; assumption.
  - constructor; [apply alike_refl|assumption].
  - econstructor; [apply alike_refl|eassumption|reflexivity].
  - eapply DV_add; eauto using alike_refl. reflexivity.
  - eapply DV_sub; eauto using alike_refl. reflexivity.
  - eapply DV_mul; eauto using alike_refl. reflexivity.
  - eapply DV_implied; eauto using alike_refl. reflexivity.
  - eapply DV_div; eauto using alike_refl. reflexivity.
  - eapply DV_mod; eauto using alike_refl. reflexivity.
Qed.
Theorem C78_decimal : forall D W (L : dlib D) value, exact_decimals L value -> forall fuel (rnd : W -> f64 * W) E dbg cf d, decimal_context L fuel rnd E dbg cf = Ok d ->
  forall parse read, reads_numerals parse read representable (fun x q => (value x == q)%Q) ->
  forall e q s ws w, exact representable e q -> wf (to_ctx E d) (with_numbers read e) -> Forall2 source_word (print e) ws -> lexes s ws ->
  exists y, eval (to_ctx E d) parse dsplitter dbg s w = (Ok y, w) /\ (value y == q)%Q.
Proof.
  intros D W L value EX fuel rnd E dbg cf d Hd parse read R e q s ws w Hx Hwf Hw Hl.
  assert (T : text_of (to_ctx E d) parse (with_numbers read e) s).
  { rewrite decimal_is in Hd. injection Hd as <-. unfold the_ctx. eapply source_text; [|exact (proj2 R)|exact R|exact Hx|exact Hw|exact Hl]. clear. vm_compute. reflexivity. }
  rewrite (C16_eval_text _ _ _ parse dbg _ s w Hwf T), <- (eval_tokens_print (to_ctx E d) dbg _ w Hwf).
  apply (C49_expressions D W L value EX fuel rnd E dbg cf d Hd); [exact Hwf|]. apply (decimal_source D value parse read R e q Hx).
Qed.
Print Assumptions C78_decimal.

(** ** Readers as [reads_numerals] asks for exist *)

(** The value of a numeral. *)
Fixpoint all_digits (acc : Z) (s : str) : option Z :=
  match s with
  | [] => Some acc
  | c :: s => let k := Z.of_N c - 48 in if (0 <=? k) && (k <=? 9) then all_digits (10 * acc + k) s else None
  end.
Fixpoint cut (s : str) : str * option str :=
  match s with
  | [] => ([], None)
  | c :: s => if (c =? 46)%N then ([], Some s) else let (a, b) := cut s in (c :: a, b)
  end.
Definition numeral_value (s : str) : option Q :=
  match cut s with
  | ([], _) => None
  | (a, None) => match all_digits 0 a with Some v => Some (inject_Z v) | None => None end
  | (a, Some []) => None
  | (a, Some b) => match all_digits 0 a, all_digits 0 b with
      | Some v, Some u => Some (inject_Z v + inject_Z u / inject_Z (10 ^ Z.of_nat (List.length b)))%Q
      | _, _ => None end
  end.
Lemma all_digits_app : forall s acc t, all_digits acc (s ++ t) = match all_digits acc s with Some v => all_digits v t | None => None end.
Proof. induction s as [|c s IH]; intros acc t; [reflexivity|]. cbn [app all_digits]. cbv zeta. destruct ((0 <=? Z.of_N c - 48) && (Z.of_N c - 48 <=? 9)); [apply IH|reflexivity]. Qed.
Lemma digits_all : forall s v, digits 10 s v -> all_digits 0 s = Some v /\ forall t, cut (s ++ t) = (s ++ fst (cut t), snd (cut t)).
Proof.
  intros s v H. induction H as [|s v k c H [IH1 IH2] Hk Hc].
  - split; [reflexivity|]. intros t. cbn [app]. destruct (cut t). reflexivity.
  - split.
    + rewrite all_digits_app, IH1. cbn [all_digits]. cbv zeta. replace (Z.of_N c - 48) with k by lia. replace ((0 <=? k) && (k <=? 9)) with true by (symmetry; lia). reflexivity.
    + intros t. rewrite <- app_assoc, IH2. cbn [app cut]. replace (c =? 46)%N with false by (symmetry; apply N.eqb_neq; lia). destruct (cut t). cbn [fst snd]. rewrite <- app_assoc. reflexivity.
Qed.
Lemma numeral_value_of : forall s q, decimal_numeral s q -> numeral_value s = Some q.
Proof.
  intros s q [s' v H N|s' v t u H N Ht Nt]; unfold numeral_value.
  - destruct (digits_all s' v H) as [A B]. specialize (B []). rewrite app_nil_r in B. rewrite B. cbn [cut fst snd]. rewrite app_nil_r. destruct s' as [|c s']; [contradiction|]. rewrite A. reflexivity.
  - destruct (digits_all s' v H) as [A B], (digits_all t u Ht) as [At _]. rewrite B. cbn [cut fst snd]. rewrite N.eqb_refl. cbn [fst snd]. rewrite app_nil_r.
    destruct s' as [|c s']; [contradiction|]. destruct t as [|c' t]; [contradiction|]. rewrite A, At. reflexivity.
Qed.

(** Doubles: the nearest one (what the documentation of [f64::from_str] promises). *)
Definition nearest (q : Q) : f64 :=
  match Qnum q with
  | Z0 => S754_zero false
  | Zpos m => f_div (S754_finite false m 0) (S754_finite false (Qden q) 0)
  | Zneg m => f_div (S754_finite true m 0) (S754_finite false (Qden q) 0)
  end.
Lemma nearest_rounds : forall q, rounds q (nearest q).
Proof.
  intros [n k]. unfold nearest. cbn [Qnum Qden]. destruct n as [|m|m].
  - apply (rounds_comp 0); [reflexivity|apply zero_rounds].
  - unfold f_div, SFdiv. destruct (div_core_rounds m 0 k 0) as (a & e' & l & -> & A & B & C).
    apply (rounds_comp (if xorb false false then - (dyadic (Zpos m) 0 / dyadic (Zpos k) 0) else dyadic (Zpos m) 0 / dyadic (Zpos k) 0)).
    + cbn [xorb]. unfold dyadic. change (2 ^ 0)%Q with 1%Q. rewrite !Qmult_1_r. symmetry. apply Qmake_Qdiv.
    + apply aux_rounds; [exact A|exact B|exact C|]. apply Qlt_le_weak. unfold Qdiv. apply Qmult_lt_0_compat; [apply dy_pos; lia|apply Qinv_lt_0_compat, dy_pos; lia].
  - unfold f_div, SFdiv. destruct (div_core_rounds m 0 k 0) as (a & e' & l & -> & A & B & C).
    apply (rounds_comp (if xorb true false then - (dyadic (Zpos m) 0 / dyadic (Zpos k) 0) else dyadic (Zpos m) 0 / dyadic (Zpos k) 0)).
    + cbn [xorb]. unfold dyadic. change (2 ^ 0)%Q with 1%Q. rewrite !Qmult_1_r. symmetry. change (Zneg m # k) with (- (Zpos m # k))%Q. rewrite Qmake_Qdiv. reflexivity.
    + apply aux_rounds; [exact A|exact B|exact C|]. apply Qlt_le_weak. unfold Qdiv. apply Qmult_lt_0_compat; [apply dy_pos; lia|apply Qinv_lt_0_compat, dy_pos; lia].
Qed.
Definition read_double (s : str) : f64 := match numeral_value s with Some q => nearest q | None => f_zero end.
Definition parse_double (s : str) : option f64 := match numeral_value s with Some q => Some (nearest q) | None => None end.
Theorem C78_double_reader : reads_numerals parse_double read_double (fun _ => True) (fun x q => rounds q x).
Proof.
  split.
  - intros s q H _. unfold parse_double, read_double. rewrite (numeral_value_of s q H). split; [reflexivity|apply nearest_rounds].
  - intros s H. repeat (destruct H as [<-|H]; [reflexivity|]). destruct H.
Qed.
Print Assumptions C78_double_reader.

(** Decimals of the reference library. *)
Definition parse_dec (s : str) : option dec := match numeral_value s with Some q => fit q | None => None end.
Definition read_dec (s : str) : dec := match parse_dec s with Some x => x | None => dzero end.
Theorem C78_decimal_reader : reads_numerals parse_dec read_dec representable (fun x q => (val x == q)%Q).
Proof.
  split.
  - intros s q H R. unfold read_dec, parse_dec. rewrite (numeral_value_of s q H). destruct (fit_computes q) as (A & _). destruct (A R) as (z & -> & Z). split; [reflexivity|exact Z].
  - intros s H. repeat (destruct H as [<-|H]; [reflexivity|]). destruct H.
Qed.
Print Assumptions C78_decimal_reader.

(** ** Cases *)

(** [(2.5 * (1 - 0.125)) / 4 mod 0.5] over [f64], and [0.1 + 0.2 * 3 - 7 / 8] over decimals, where they are exact. *)
Definition C78_tree : expr str :=
  EBin (lit "mod") (EBin (lit "/") (EBin (lit "*") (ENum (lit "2.5")) (EGroup Parenthesis (EBin (lit "-") (ENum (lit "1")) (ENum (lit "0.125"))))) (ENum (lit "4"))) (ENum (lit "0.5")).
Definition C78_text : str := lit "2.5*(1 -0.125) / 4 mod 0.5".
Definition C78_words : list str := map lit ["2.5"; "*"; "("; "1"; "-"; "0.125"; ")"; "/"; "4"; "mod"; "0.5"]%string.
Lemma dn_whole : forall s v, all_digits 0 s = Some v -> digits 10 s v.
Proof.
  intros s. induction s as [|c s IH] using rev_ind; intros v H; [injection H as <-; constructor|].
  rewrite all_digits_app in H. destruct (all_digits 0 s) as [u|]; [|discriminate]. cbn [all_digits] in H. cbv zeta in H.
  destruct ((0 <=? Z.of_N c - 48) && (Z.of_N c - 48 <=? 9)) eqn:B; [|discriminate]. assert (v = 10 * u + (Z.of_N c - 48)) as -> by congruence. apply digits_more; [apply IH; reflexivity|lia|lia].
Qed.
Lemma dn_of : forall s v, all_digits 0 s = Some v -> s <> [] -> decimal_numeral s (inject_Z v).
Proof. intros s v H N. apply DN_whole; [apply dn_whole; exact H|exact N]. Qed.
Lemma dn_point : forall s v t u, all_digits 0 s = Some v -> s <> [] -> all_digits 0 t = Some u -> t <> [] ->
  decimal_numeral (s ++ 46%N :: t) (inject_Z v + inject_Z u / inject_Z (10 ^ Z.of_nat (List.length t))).
Proof. intros s v t u H N H' N'. apply DN_fraction; try assumption; apply dn_whole; assumption. Qed.
Ltac whole n := apply X_number; [apply (dn_of _ n); [reflexivity|discriminate]|].
Ltac point a v b u := apply X_number; [apply (dn_point (lit a) v (lit b) u); [reflexivity|discriminate|reflexivity|discriminate]|].
Ltac dbl m e := apply (double_by m e); [vm_compute; reflexivity|split; vm_compute; discriminate|vm_compute; reflexivity].
Example C78_case : (exists q, exact a_double C78_tree q /\ (q == 3 # 64)%Q) /\ wf (to_ctx std_env f_ctx) (with_numbers read_double C78_tree) /\
  Forall2 source_word (print C78_tree) C78_words /\ lexes C78_text C78_words /\
  fst (eval (to_ctx std_env f_ctx) parse_double dsplitter true C78_text tt) = Ok (f_of 3 (-6)).
Proof.
  split; [|split; [|split; [|split]]].
  - eexists. split.
    + apply X_mod; [apply X_div; [apply X_mul; [point "2"%string 2 "5"%string 5; dbl 5 (-1)|apply X_group, X_sub; [whole 1; dbl 1 0|point "0"%string 0 "125"%string 125; dbl 1 (-3)|dbl 7 (-3)]|dbl 35 (-4)]|whole 4; dbl 4 0|discriminate|dbl 35 (-6)]|point "0"%string 0 "5"%string 5; dbl 1 (-1)|discriminate].
    + vm_compute. reflexivity.
  - apply wfb_sound. vm_compute. reflexivity.
  - repeat constructor.
  - apply C11_maximal_munch. vm_compute. reflexivity.
  - vm_compute. reflexivity.
Qed.
(** [0.1 + 0.2 * 3 - 7/8] over decimals is exact; over doubles [0.1 + 0.2] is not [0.3], but IEEE 754's result. *)
Definition C78_tree2 : expr str := EBin (lit "-") (EBin (lit "+") (ENum (lit "0.1")) (EBin (lit "*") (ENum (lit "0.2")) (ENum (lit "3")))) (EBin (lit "/") (ENum (lit "7")) (ENum (lit "8"))).
Definition C78_text2 : str := lit "0.1 + 0.2*3 - 7/8".
Ltac rep c s := apply (rep_by c s); [lia|reflexivity|vm_compute; reflexivity].
Example C78_case2 : (exists q, exact representable C78_tree2 q /\ (q == -7 # 40)%Q) /\ wf ref_ctx (with_numbers read_dec C78_tree2) /\
  (exists ws, Forall2 source_word (print C78_tree2) ws /\ lexes C78_text2 ws) /\
  shown (eval ref_ctx parse_dec dsplitter true C78_text2 tt) = Ok (-7 # 40)%Q /\
  fst (eval (to_ctx std_env f_ctx) parse_double dsplitter true (lit "0.1+0.2") tt) = Ok (f_of 5404319552844596 (-54)) /\
  parse_double (lit "0.3") = Some (f_of 5404319552844595 (-54)).
Proof.
  split; [|split; [|split; [|split; [|split]]]].
  - eexists. split.
    + apply X_sub; [apply X_add; [point "0"%string 0 "1"%string 1; rep 1 1|apply X_mul; [point "0"%string 0 "2"%string 2; rep 2 1|whole 3; rep 3 0|rep 6 1]|rep 7 1]|apply X_div; [whole 7; rep 7 0|whole 8; rep 8 0|discriminate|rep 875 3]|rep (-175) 3].
    + vm_compute. reflexivity.
  - apply wfb_sound. vm_compute. reflexivity.
  - exists (map lit ["0.1"; "+"; "0.2"; "*"; "3"; "-"; "7"; "/"; "8"]%string). split; [repeat constructor|apply C11_maximal_munch; vm_compute; reflexivity].
  - vm_compute. reflexivity.
  - vm_compute. reflexivity.
  - vm_compute. reflexivity.
Qed.
