(** * The calculator of SpecBinCalc is what the binary context computes *)
From Coq Require Import List NArith ZArith Bool Arith Lia String.
From Verif Require Import ModelBase ModelContext ModelEvaluator ModelText ModelDefault ModelNum ModelOps ModelSplit ModelTokenizer ModelParse ModelBinary
  SpecExpr SpecText SpecOps SpecLex SpecParse SpecTokenizer SpecRepl ProofText ProofDefault ProofBuild ProofSplit ProofLex ProofTok ProofExprText ProofParse ProofOps ProofBinary SpecCalculator ProofCalculator SpecBinCalc.
Import ListNotations.
Local Open Scope Z_scope.

Lemma same_named : forall o nm, named o nm = true -> map small (lit nm) = lit nm -> forall m, named o m = named (lit nm) m.
Proof. intros o nm K Lw m. unfold named in *. apply str_eqb_eq in K. rewrite K, Lw. reflexivity. Qed.
Lemma same_is : forall o nm, named o nm = true -> map small (lit nm) = lit nm -> forall l, is l o = is l (lit nm).
Proof. intros o nm K Lw l. unfold is. induction l as [|m l IH]; [reflexivity|]. cbn [existsb]. rewrite IH, (same_named o nm K Lw). reflexivity. Qed.
Lemma same_operation : forall dbg o nm x y, named o nm = true -> map small (lit nm) = lit nm -> bit_operation dbg o x y = bit_operation dbg (lit nm) x y.
Proof. intros dbg o nm x y K Lw. unfold bit_operation. rewrite !(same_is o nm K Lw). reflexivity. Qed.
Lemma same_strength : forall o nm, named o nm = true -> map small (lit nm) = lit nm -> bit_strength o = bit_strength (lit nm).
Proof. intros o nm K Lw. unfold bit_strength. rewrite !(same_is o nm K Lw). reflexivity. Qed.

Definition first_ok (nm : string) : bool :=
  match lit nm with
  | [] => false
  | ch :: r => (negb (between 48 57 ch) && negb (N.eqb ch 43) && negb (N.eqb ch 45) && negb (N.eqb ch 98) && negb (N.eqb ch 66))
               && (is_ascii_punctuation ch || negb (str_eqb r []))
               && (forallb (fun x => is_operator_char x && negb (is_ident_start x)) (lit nm) || forallb is_ident_start (lit nm))
  end && str_eqb (map small (lit nm)) (lit nm).
Definition all_names : list string := (operator_names ++ ["not"])%list%string.
Lemma names_fine : forall nm, In nm all_names -> first_ok nm = true.
Proof. assert (X : forallb first_ok all_names = true) by (vm_compute; reflexivity). intros nm. apply (proj1 (forallb_forall _ _) X). Qed.
Lemma names_low : forall nm, In nm all_names -> map small (lit nm) = lit nm.
Proof. intros nm Hn. apply names_fine in Hn. unfold first_ok in Hn. apply andb_true_iff in Hn. destruct Hn as [_ Hn]. apply str_eqb_eq. exact Hn. Qed.

Lemma letters_alike' : forall x y, ascii_alike x y -> Forall letter y -> Forall letter x.
Proof. intros x y A. induction A as [|a b x y Hab _ IH]; intros F; [constructor|]. inversion F; subst. constructor; [|auto]. unfold letter, same_letter in *. lia. Qed.

Section Values.
Context {W : Type}.
Variables (dbg : bool) (E : env) (cf : config) (d d' : dctx Z W).
Hypothesis H : binary_context dbg E cf = Ok d.
Hypothesis Hs : same_but_variables d d'.
Notation c := (to_ctx E d).
Notation c' := (to_ctx E d').
Notation vars := (get_variable c').
Notation calc := (bit_calc dbg vars).

Lemma bit_lookups : get_constant c' = get_constant c /\ get_function c' = get_function c /\ get_unary c' = get_unary c /\ get_binary c' = get_binary c /\ cfg c' = cf.
Proof. destruct Hs as (A1 & A2 & A3 & A4 & A5). cbn [to_ctx get_constant get_function get_unary get_binary cfg]. rewrite A1, A2, A3, A4, A5. rewrite (d_is dbg E cf d H). auto. Qed.
Lemma nothing_else : forall q, get_constant c' q = None /\ get_function c' q = None.
Proof. intros q. destruct bit_lookups as (-> & -> & _). split; [apply (binary_no_const dbg E cf d H)|apply (binary_no_fun dbg E cf d H)]. Qed.

(** ** Operators *)
Definition op_of (nm : string) : option (bfunc Z W) := mget (fun a b => str_eqb a b) (bins_of (bin_steps dbg)) (lit nm).
Lemma op_at : forall o nm, In nm operator_names -> named o nm = true -> exists f, op_of nm = Some f /\ get_binary c' o = Some f.
Proof.
  intros o nm Hn K. assert (X : exists f, op_of nm = Some f /\ In (lit nm, f) (bins_of (W := W) (bin_steps dbg))).
  { unfold op_of. cbn [In operator_names] in Hn. repeat (destruct Hn as [<-|Hn]; [eexists; split; [reflexivity|unfold bins_of, bin_steps, bin_ops; cbn [map flat_map app]; unfold bin2; cbn [bf_aliases bf_name map]; repeat first [left; reflexivity|right]]|]). destruct Hn. }
  destruct X as (f & F & I). exists f. split; [exact F|]. destruct bit_lookups as (_ & _ & _ & -> & _). apply (binary_lookup dbg E cf d H (lit nm)); [exact I|].
  apply named_alike; [exact K|]. apply names_low. apply in_or_app. left. exact Hn.
Qed.
Lemma shiftl_is : forall x k, 0 <= k -> wrap i128 (Z.shiftl x k) = wrapped_value i128 (x * 2 ^ k).
Proof. intros x k Hk. rewrite wrapped_is, Z.shiftl_mul_pow2 by exact Hk. reflexivity. Qed.
Lemma shift_is : forall f y, shift dbg f y = then_ (amount dbg y) (fun k => Ok (f k)).
Proof. intros f y. unfold shift, amount. destruct ((0 <=? y) && (y <? 128)); [reflexivity|]. destruct dbg; reflexivity. Qed.
Lemma amount_range : forall y k, amount dbg y = Ok k -> 0 <= k < 128.
Proof. intros y k. unfold amount. destruct (Z.leb_spec 0 y), (Z.ltb_spec y 128); cbn [andb]; try (intros X; injection X as <-; lia); (destruct dbg; [discriminate|]; intros X; injection X as <-; apply Z.mod_pos_bound; lia). Qed.
Lemma bit_operation_is : forall o x y w, one_of operator_names o -> apply_binary c' o x y w = (bit_operation dbg o x y, w).
Proof.
  intros o x y w (nm & Hn & K). destruct (op_at o nm Hn K) as (f & F & G). unfold apply_binary. rewrite G. clear G.
  assert (Lw : map small (lit nm) = lit nm) by (apply names_low; apply in_or_app; left; exact Hn). rewrite (same_operation dbg o nm x y K Lw). clear Lw K.
  assert (T : forall g h : Z -> Z, (forall k, 0 <= k -> g k = h k) -> then_ (amount dbg y) (fun k => Ok (g k)) = then_ (amount dbg y) (fun k => Ok (h k))).
  { intros g h Q. destruct (amount dbg y) as [k| |] eqn:A; [|reflexivity..]. apply amount_range in A. cbn [then_]. rewrite Q by lia. reflexivity. }
  cbn [In operator_names] in Hn.
  repeat (destruct Hn as [<-|Hn]; [unfold op_of in F; cbn in F; injection F as <-; cbn [bf_call b_and b_or b_xor b_eq b_ne b_gt b_lt b_gte b_lte b_shr b_shl bin2]; unfold lift, truth, bit_operation, truth_value;
    repeat match goal with |- context [is ?l ?s] => let b := eval vm_compute in (is l s) in change (is l s) with b end; cbv iota; f_equal; rewrite ?shift_is, ?Z.gtb_ltb, ?Z.geb_leb; try reflexivity;
    try (apply T; intros k Hk; apply Z.shiftr_div_pow2; exact Hk); try (apply T; intros k Hk; apply shiftl_is; exact Hk)|]); destruct Hn.
Qed.
Lemma fits_div : forall x k, 0 <= k -> fits i128 x -> fits i128 (x / 2 ^ k).
Proof. intros x k Hk F. rewrite <- Z.shiftr_div_pow2 by exact Hk. apply fits_shiftr_k; assumption. Qed.
Lemma bit_operation_fits : forall o x y z, fits i128 x -> fits i128 y -> bit_operation dbg o x y = Ok z -> fits i128 z.
Proof.
  intros o x y z Fx Fy. unfold bit_operation, truth_value. repeat match goal with |- context [is ?l o] => destruct (is l o) end; intros X;
    try (injection X as <-; first [apply fits_lor|apply fits_lxor|apply fits_land|apply fits_01]; assumption);
    (destruct (amount dbg y) as [k| |] eqn:A; try discriminate X; apply amount_range in A; cbn [then_] in X; injection X as <-).
  - apply fits_div; [lia|exact Fx].
  - rewrite wrapped_is. apply wrap_spec. reflexivity.
Qed.
Lemma complement_is : forall u x w, one_of ["~"; "not"]%string u -> apply_unary c' u x w = (Ok (- x - 1), w).
Proof.
  intros u x w (nm & Hn & K). unfold apply_unary. destruct bit_lookups as (_ & _ & -> & _). rewrite (binary_not dbg E cf d H).
  - reflexivity.
  - cbn [In] in Hn. destruct Hn as [<-|[<-|[]]]; [left|right]; apply named_alike; solve [exact K|reflexivity].
Qed.

Fixpoint bit_numbers (e : expr Z) : Prop :=
  match e with ENum v => fits i128 v | EGroup _ e | EPre _ e => bit_numbers e | EBin _ l r => bit_numbers l /\ bit_numbers r | _ => True end.
Lemma bit_calc_is : (forall x z, vars x = Some z -> fits i128 z) -> forall e w, bit_calculator e -> bit_numbers e -> denote c' e w = (calc e, w) /\ forall z, calc e = Ok z -> fits i128 z.
Proof.
  intros Hv. induction e as [v|x|x|g e IH|f g args IH|u e IH|e u IH|o l r IHl IHr|l r IHl IHr] using expr_ind'; intros w Hc Hn; cbn [denote bit_calc bit_calculator bit_numbers] in *; try contradiction.
  - split; [reflexivity|]. intros z X. injection X as <-. exact Hn.
  - unfold value_of. destruct (vars x) as [z|] eqn:Q; (split; [reflexivity|]); intros z' X; [|discriminate]. injection X as <-. exact (Hv x z Q).
  - apply IH; assumption.
  - destruct Hc as (Hu & Ha & _). destruct (IH w Ha Hn) as [I1 I2]. unfold bind. rewrite I1. destruct (calc e) as [z|k|]; [|split; [reflexivity|discriminate]..]. specialize (I2 z eq_refl). cbn [then_].
    rewrite (complement_is u z w Hu). split; [reflexivity|]. intros y X. injection X as <-. replace (- z - 1) with (Z.lnot z) by (unfold Z.lnot; lia). apply fits_lnot. exact I2.
  - destruct Hc as (Hop & H1 & H2). destruct Hn as [N1 N2]. destruct (IHl w H1 N1) as [A1 A2]. destruct (IHr w H2 N2) as [B1 B2]. unfold bind. rewrite A1. destruct (calc l) as [x|k|]; [|split; [reflexivity|discriminate]..].
    cbn [then_]. rewrite B1. destruct (calc r) as [y|k|]; [|split; [reflexivity|discriminate]..]. cbn [then_]. rewrite (bit_operation_is o x y w Hop). split; [reflexivity|]. intros z. apply bit_operation_fits; auto.
Qed.

(** ** How trees group *)
Lemma bit_found : forall o, one_of operator_names o -> exists f, get_binary c' o = Some f /\ bf_prec f = bit_strength o /\ bf_assoc f = LeftA.
Proof.
  intros o (nm & Hn & K). destruct (op_at o nm Hn K) as (f & F & G). exists f. split; [exact G|]. clear G.
  assert (Lw : map small (lit nm) = lit nm) by (apply names_low; apply in_or_app; left; exact Hn). rewrite (same_strength o nm K Lw). clear Lw K.
  cbn [In operator_names] in Hn. repeat (destruct Hn as [<-|Hn]; [unfold op_of in F; cbn in F; injection F as <-; split; reflexivity|]). destruct Hn.
Qed.
Lemma bit_groups : forall o1 o2, one_of operator_names o1 -> one_of operator_names o2 -> (groups_left c' o1 o2 <-> bit_first o1 o2).
Proof.
  intros o1 o2 H1 H2. destruct (bit_found o1 H1) as (f1 & F1 & P1 & A1). destruct (bit_found o2 H2) as (f2 & F2 & P2 & A2). unfold groups_left, bit_first. split.
  - intros (g1 & g2 & G1 & G2 & G). rewrite F1 in G1. rewrite F2 in G2. injection G1 as <-. injection G2 as <-. rewrite P1, P2 in G. lia.
  - intros G. exists f1, f2. split; [exact F1|]. split; [exact F2|]. rewrite P1, P2. destruct (N.eq_dec (bit_strength o1) (bit_strength o2)) as [Q|Q]; [right; split; [exact Q|exact A1]|left; lia].
Qed.
Lemma bit_edges : forall e, bit_calculator e -> (forall o, In o (left_ops e) -> one_of operator_names o) /\ (forall o, In o (right_ops e) -> one_of operator_names o).
Proof.
  induction e as [v|x|x|g e IH|f g args IH|u e IH|e u IH|o l r IHl IHr|l r IHl IHr] using expr_ind'; intros Hc; cbn [left_ops right_ops bit_calculator] in *; try (split; intros o' []; fail).
  - destruct Hc as (A & B & C). destruct (IHl B) as [L1 _], (IHr C) as [_ R2]. split; intros o' X; apply in_app_or in X; destruct X as [X|[<-|[]]]; auto.
  - contradiction.
Qed.
Lemma not_found : forall u, one_of ["~"; "not"]%string u -> get_unary c' u = Some b_not.
Proof.
  intros u (nm & Hn & K). destruct bit_lookups as (_ & _ & -> & _). apply (binary_not dbg E cf d H). cbn [In] in Hn. destruct Hn as [<-|[<-|[]]]; [left|right]; apply named_alike; solve [exact K|reflexivity].
Qed.
Lemma bit_wf : forall e, bit_calculator e -> bit_grouped e -> wf c' e.
Proof.
  induction e as [v|x|x|g e IH|f g args IH|u e IH|e u IH|o l r IHl IHr|l r IHl IHr] using expr_ind'; intros Hc Hg; cbn [wf bit_grouped bit_calculator] in *; try exact I; try contradiction.
  - auto.
  - destruct Hc as (Hu & Ha & _). destruct Hg as [G1 G2]. split; [auto|]. split; [|exact G2]. exists b_not. split; [apply not_found; exact Hu|reflexivity].
  - destruct Hc as (A & B & C). destruct Hg as (G1 & G2 & G3 & G4 & G5). split; [auto|]. split; [auto|]. destruct (bit_found o A) as (f & F & _). split; [rewrite F; discriminate|]. split; [exact G3|]. split.
    + intros o' X. apply bit_groups; [apply (proj2 (bit_edges l B)); exact X|exact A|]. apply G4. exact X.
    + intros o' X Y. apply (G5 o' X). apply bit_groups; [exact A|apply (proj1 (bit_edges r C)); exact X|exact Y].
Qed.

(** ** Texts *)
Lemma alike_first : forall x nm, named x nm = true -> In nm all_names -> exists ch r c0 r0, x = ch :: r /\ lit nm = c0 :: r0 /\ same_letter ch c0 /\ ascii_alike r r0.
Proof.
  intros x nm K Hn. pose proof (names_fine nm Hn) as F. apply named_alike in K; [|apply names_low; exact Hn]. unfold first_ok in F. destruct (lit nm) as [|c0 r0]; [discriminate F|].
  inversion K as [|ch ? r ? A B]; subst. exists ch, r, c0, r0. auto.
Qed.
Lemma letter_case : forall a b, same_letter a b -> a = b \/ ((65 <= a <= 90 \/ 97 <= a <= 122) /\ (65 <= b <= 90 \/ 97 <= b <= 122) /\ (a = b + 32 \/ b = a + 32))%N.
Proof. intros a b. unfold same_letter. lia. Qed.
Lemma not_numeral : forall ch r, ~ (48 <= ch <= 57)%N -> ch <> 43%N -> ch <> 45%N -> ch <> 98%N -> parse_binary (ch :: r) = None.
Proof.
  intros ch r A B C D. destruct (parse_binary (ch :: r)) as [v|] eqn:P; [|reflexivity]. exfalso. apply parse_binary_spec in P. destruct P as [_ [(t & X & _)|P]]; [injection X as X _; contradiction|].
  inversion P as [? ? N _| |]; subst; [|congruence..]. pose proof (digits_char 10 _ _ ch ltac:(lia) N ltac:(left; reflexivity)). contradiction.
Qed.
Lemma name_not_number : forall x nm, In nm all_names -> named x nm = true -> parse_binary x = None.
Proof.
  intros x nm Hn K. destruct (alike_first x nm K Hn) as (ch & r & c0 & r0 & -> & L & A & _). pose proof (names_fine nm Hn) as F. unfold first_ok in F. rewrite L in F.
  rewrite !andb_true_iff, !negb_true_iff in F. destruct F as [[[[[[[F1 F2] F3] F4] F5] _] _] _]. rewrite !N.eqb_neq in *.
  assert (F1' : ~ (48 <= c0 <= 57)%N) by (intros X; apply (proj2 (between_spec _ _ _)) in X; congruence). destruct (letter_case _ _ A) as [-> |X]; apply not_numeral; lia.
Qed.
Lemma name_shape : forall x nm, In nm all_names -> named x nm = true -> ident_word x \/ operator_word x.
Proof.
  intros x nm Hn K. pose proof (names_fine nm Hn) as F. apply named_alike in K; [|apply names_low; exact Hn]. unfold first_ok in F. destruct (lit nm) as [|c0 r0] eqn:L; [discriminate F|].
  rewrite !andb_true_iff in F. destruct F as [[_ F] _]. apply orb_true_iff in F. destruct F as [F|F]; rewrite forallb_forall in F.
  - assert (X : x = c0 :: r0).
    { assert (G : forall b, In b (c0 :: r0) -> ~ (65 <= b <= 90 \/ 97 <= b <= 122)%N).
      { intros b I X. specialize (F b I). apply andb_true_iff in F. destruct F as [_ F]. apply negb_true_iff in F. assert (is_ident_start b = true) by (apply letter_spec; unfold letter; tauto). congruence. }
      clear F L. revert G. generalize dependent (c0 :: r0). intros l A. induction A as [|a b x l Hab _ IH]; intros G; [reflexivity|]. f_equal; [|apply IH; intros b' I; apply G; right; exact I].
      destruct (letter_case a b Hab) as [->|X]; [reflexivity|]. exfalso. apply (G b); [left; reflexivity|tauto]. }
    right. subst x. split; [discriminate|]. split.
    + apply Forall_forall. intros b I. specialize (F b I). apply andb_true_iff in F. apply op_spec. apply F.
    + intros b t X. injection X as -> ->. specialize (F b (or_introl eq_refl)). apply andb_true_iff in F. destruct F as [_ F]. intros Y. apply letter_spec in Y. rewrite Y in F. discriminate.
  - left. assert (G : Forall letter x). { apply (letters_alike' x _ K). apply Forall_forall. intros b I. apply letter_spec. apply F. exact I. }
    destruct x as [|a x]; [inversion K|]. inversion G; subst. exists a, x. split; [reflexivity|]. split; [assumption|]. eapply Forall_impl; [|eassumption]. auto.
Qed.
Definition two : list str := [lit "~"; lit "not"].
Lemma no_complement : forall q, nameb q = true -> forallb (fun n => negb (str_eqb (low q) (low n))) two = true -> get_unary c' q = None.
Proof.
  intros q N F. destruct bit_lookups as (_ & _ & -> & _). rewrite (d_is dbg E cf d H). cbn [to_ctx get_unary d_unary]. apply mget_none.
  cbn [forallb two] in F. rewrite !andb_true_iff, !negb_true_iff in F. destruct F as (F1 & F2 & _).
  cbn [uns_of bin_steps flat_map app map]. repeat constructor; cbn [fst b_not uf_name]; (rewrite km_low; [assumption|exact N|reflexivity]).
Qed.
Lemma complement_alike : forall q q', ascii_alike q q' -> get_unary c' q = get_unary c' q'.
Proof. intros q q' A. destruct (lookup_alike E d' q q' A) as (_ & _ & X & _). exact X. Qed.
Lemma first_not_complement : forall x nm ch r, In nm all_names -> named x nm = true -> x = ch :: r -> get_unary c' [ch] = None.
Proof.
  intros x nm ch r Hn K ->. destruct (alike_first _ nm K Hn) as (ch' & r' & c0 & r0 & X & L & A & _). injection X as <- <-.
  rewrite (complement_alike [ch] [c0]) by (constructor; [exact A|constructor]). 
  assert (G : forallb (fun nm => match lit nm with ch :: _ => nameb [ch] && forallb (fun n => negb (str_eqb (low [ch]) (low n))) two | [] => false end) all_names = true) by (vm_compute; reflexivity).
  rewrite forallb_forall in G. specialize (G nm Hn). rewrite L in G. apply andb_true_iff in G. apply no_complement; apply G.
Qed.
Lemma operator_not_complement : forall o, one_of operator_names o -> get_unary c' o = None.
Proof.
  intros o (nm & Hn & K). rewrite (complement_alike o (lit nm)) by (apply named_alike; [exact K|apply names_low; apply in_or_app; left; exact Hn]).
  assert (G : forallb (fun nm => nameb (lit nm) && forallb (fun n => negb (str_eqb (low (lit nm)) (low n))) two) operator_names = true) by (vm_compute; reflexivity).
  rewrite forallb_forall in G. specialize (G nm Hn). apply andb_true_iff in G. apply no_complement; apply G.
Qed.
Lemma name_only : forall x, parse_binary x = None -> vars x = None -> operator_only c' parse_binary x.
Proof. intros x P V. unfold operator_only, variable, constant, function. destruct (nothing_else x) as [-> ->]. rewrite V. tauto. Qed.
Lemma sign_after : forall x nm, In nm all_names -> named x nm = true -> sign_may_follow c' x.
Proof.
  intros x nm Hn K. split.
  - intros (ch & r & X & U & _). apply U. exact (first_not_complement x nm ch r Hn K X).
  - intros (ch & X & P). destruct (alike_first x nm K Hn) as (ch' & r & c0 & r0 & Y & L & A & B). rewrite X in Y. injection Y as <- <-. inversion B; subst. pose proof (names_fine nm Hn) as F. unfold first_ok in F. rewrite L in F.
    rewrite !andb_true_iff in F. destruct F as [[[_ F] _] _]. change (str_eqb [] []) with true in F. cbn [negb] in F. rewrite orb_false_r in F.
    destruct (letter_case _ _ A) as [->|Z]; [congruence|]. unfold is_ascii_punctuation in F. rewrite !orb_true_iff, !between_spec in F. lia.
Qed.
Lemma bracket_nameless : forall g, (vars [grouping_open g] = None -> nameless c' parse_binary [grouping_open g]) /\ (vars [grouping_close g] = None -> nameless c' parse_binary [grouping_close g]).
Proof.
  assert (G : forall ch, In ch (lit "()[]{}") -> vars [ch] = None -> nameless c' parse_binary [ch]).
  { intros ch I V. assert (B : nameb [ch] = true /\ forallb (fun n => negb (str_eqb (low [ch]) (low n))) two = true /\ Forall (fun p => str_eqb (low [ch]) (low (fst p)) = false /\ nameb (fst p) = true) (bins_of (W := W) (bin_steps dbg)) /\ parse_binary [ch] = None).
    { cbn [In lit map] in I. cbn in I. repeat (destruct I as [<-|I]; [split; [reflexivity|]; split; [reflexivity|]; split; [repeat (constructor; [split; reflexivity|]); constructor|reflexivity]|]). destruct I. }
    destruct B as (B1 & B2 & B3 & B4). split; [apply name_only; assumption|]. unfold unary, binary. rewrite (no_complement [ch] B1 B2). split; [tauto|].
    destruct bit_lookups as (_ & _ & _ & -> & _). assert (X : get_binary c [ch] = None); [|rewrite X; tauto]. rewrite (d_is dbg E cf d H). cbn [to_ctx get_binary d_binary]. apply mget_none.
    eapply Forall_impl; [|exact B3]. intros [k f] [F1 F2]. rewrite km_low; assumption. }
  intros g. split; apply G; destruct g; cbn; tauto.
Qed.
Definition bit_token (tk : token Z) : Prop :=
  match tk with
  | TNumber _ | TVariable _ => True
  | TUnary u => one_of ["~"; "not"]%string u
  | TBinary o => one_of operator_names o
  | TOpen k => exists g, k = grouping_open g
  | TClose k => exists g, k = grouping_close g
  | _ => False
  end.
Lemma bit_tokens : forall e, bit_calculator e -> Forall bit_token (print e).
Proof.
  induction e as [v|x|x|g e IH|f g args IH|u e IH|e u IH|o l r IHl IHr|l r IHl IHr] using expr_ind'; intros Hc; cbn [print bit_calculator] in *; try contradiction.
  - repeat constructor.
  - repeat constructor.
  - constructor; [exists g; reflexivity|]. apply Forall_app. split; [auto|]. constructor; [exists g; reflexivity|constructor].
  - destruct Hc as (Hu & Ha & _). constructor; [exact Hu|auto].
  - destruct Hc as (A & B & C). apply Forall_app. split; [auto|]. constructor; [exact A|auto].
Qed.
Lemma tilde_symbol : forall u, named u "~" = true -> u = lit "~".
Proof.
  intros u K. apply named_alike in K; [|reflexivity]. change (lit "~") with [126%N] in *. inversion K as [|a ? r ? A B]; subst. inversion B; subst. destruct (letter_case _ _ A) as [->|X]; [reflexivity|lia].
Qed.
Lemma bit_spells : forall tk wd, bit_token tk -> bit_word vars tk wd -> spells c' parse_binary tk wd.
Proof.
  intros tk wd Ht Hw. destruct tk as [v|x|x|x|x|x|k|k|k|x|]; cbn [bit_token bit_word spells] in *; try contradiction.
  - apply parse_binary_spec. destruct Hw as [F [[D N]|(t & -> & D & N)]]; (split; [exact F|]); [right|left; exists t; split; [reflexivity|]]; apply numeral_plain; assumption.
  - destruct Hw as (-> & (ch & r & -> & Hl & Hr) & B & V). split; [reflexivity|]. split; [|exact V].
    destruct (N.eq_dec ch 98) as [->|Nb]; [|apply not_numeral; unfold letter in Hl; lia]. destruct (parse_binary (98%N :: r)) as [v|] eqn:P; [|exact P]. exfalso. apply parse_binary_spec in P. destruct P as [F [(t & X & P)|P]].
    + injection X as <-. inversion P as [? ? Dg Ne| |]; subst; [exact (Ne (B r v eq_refl Dg))| |]; (inversion Hr as [|? ? Y _]; subst; unfold letter, digit in Y; lia).
    + inversion P as [? ? Dg Ne| |]; subst. pose proof (digits_char 10 _ _ 98%N ltac:(lia) Dg ltac:(left; reflexivity)). lia.
  - destruct Hw as (-> & B). split; [reflexivity|]. pose proof (operator_not_complement x Ht) as U. destruct Ht as (nm & Hn & K). assert (Hn' : In nm all_names) by (apply in_or_app; left; exact Hn).
    split; [apply name_only; [exact (name_not_number x nm Hn' K)|exact B]|]. split; [exact (name_shape x nm Hn' K)|]. intros (f & X & _). rewrite U in X. discriminate.
  - destruct Hw as (-> & B). split; [reflexivity|]. pose proof (not_found x Ht) as U. assert (P : parse_binary x = None /\ (ident_word x \/ operator_word x)).
    { destruct Ht as (nm & Hn & K). cbn [In] in Hn. destruct Hn as [<-|[<-|[]]].
      - apply tilde_symbol in K. subst x. split; [reflexivity|]. right. split; [discriminate|]. split; [constructor; [apply op_spec; reflexivity|constructor]|]. intros ch r X. injection X as <- <-. unfold letter. lia.
      - assert (Hn' : In "not"%string all_names) by (apply in_or_app; right; left; reflexivity). split; [exact (name_not_number x _ Hn' K)|exact (name_shape x _ Hn' K)]. }
    destruct P as [P S]. split; [apply name_only; assumption|]. split; [exact S|]. intros (f & X & Y). rewrite U in X. injection X as <-. discriminate Y.
  - destruct Ht as (g & ->). destruct Hw as (-> & B). split; [reflexivity|]. apply bracket_nameless. exact B.
  - destruct Ht as (g & ->). destruct Hw as (-> & B). split; [reflexivity|]. apply bracket_nameless. exact B.
Qed.
Lemma leads_complement : forall e : expr Z, bit_calculator e -> begins_with_sign e -> complement_first e = true.
Proof.
  unfold begins_with_sign. induction e as [v|x|x|g e IH|f g args IH|u e IH|e u IH|o l r IHl IHr|l r IHl IHr] using expr_ind'; intros Hc (u0 & ts & X); cbn [print bit_calculator complement_first] in *; try contradiction; try discriminate X; try reflexivity.
  destruct Hc as (_ & B & _). apply IHl; [exact B|]. destruct (print l) as [|tk tks] eqn:Q; [exfalso; exact (print_nonempty l Q)|]. cbn [app] in X. injection X as -> _. eauto.
Qed.
Lemma bit_readable : forall e, bit_calculator e -> readable c' e.
Proof.
  induction e as [v|x|x|g e IH|f g args IH|u e IH|e u IH|o l r IHl IHr|l r IHl IHr] using expr_ind'; intros Hc; cbn [readable bit_calculator] in *; auto; try contradiction.
  - destruct Hc as (Hu & Ha & Hn). split; [auto|]. intros B. apply (leads_complement e Ha) in B. destruct Hu as (nm & Hm & K). cbn [In] in Hm. destruct Hm as [<-|[<-|[]]]; [rewrite (Hn K) in B; discriminate|].
    apply (sign_after u "not"); [apply in_or_app; right; left; reflexivity|exact K].
  - destruct Hc as ((nm & Hn & K) & B & C). split; [auto|]. split; [auto|]. intros _. apply (sign_after o nm); [apply in_or_app; left; exact Hn|exact K].
Qed.
Lemma bit_words_fit : forall e ws, Forall2 (bit_word vars) (print e) ws -> bit_numbers e.
Proof.
  induction e as [v|x|x|g e IH|f g args IH|u e IH|e u IH|o l r IHl IHr|l r IHl IHr] using expr_ind'; intros ws Hw; cbn [print bit_numbers] in *; try exact I.
  - inversion Hw as [|? ? ? ? A _]; subst. apply A.
  - cbn [app] in Hw. inversion Hw as [|? ? ? ? _ B]; subst. apply Forall2_app_inv_l in B. destruct B as (w1 & w2 & S1 & S2 & ->). eapply IH; exact S1.
  - cbn [app] in Hw. inversion Hw as [|? ? ? ? _ B]; subst. eapply IH; exact B.
  - apply Forall2_app_inv_l in Hw. destruct Hw as (w1 & w2 & S1 & S2 & ->). cbn [app] in S2. inversion S2; subst. split; [eapply IHl|eapply IHr]; eassumption.
Qed.
End Values.
Lemma bit_calc_vars : forall dbg vars vars', (forall x : str, vars x = vars' x) -> forall e, bit_calc dbg vars e = bit_calc dbg vars' e.
Proof. intros dbg vars vars' V. refine (expr_ind' _ _ _ _ _ _ _ _ _ _ _); intros; cbn [bit_calc]; rewrite ?V; try congruence. rewrite H, H0. reflexivity. Qed.
