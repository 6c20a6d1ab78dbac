(** * The description of SpecComplexCalc determines the result *)
From Coq Require Import List NArith ZArith QArith Qabs Bool Arith Lia Lqa String.
From Coq Require Import Floats.SpecFloat.
From Verif Require Import ModelBase ModelContext ModelEvaluator ModelFloat ModelNum ModelComplex
  SpecExpr SpecText SpecOps SpecDecimal SpecDouble SpecFunctions SpecRound SpecComplex SpecCalculator SpecDoubleCalc SpecComplexCalc
  ProofText ProofOps ProofFloat ProofDouble ProofDouble2 ProofSnap ProofRound ProofRound2 ProofRound3 ProofCalculator PropFunctions PropRound ProofDoubleCalc ProofDoubleCalc2.
Import ListNotations.
Local Open Scope Z_scope.

Definition settled {A} (N P : A -> Prop) : Prop := (forall z z', P z -> P z' -> z = z') /\ forall z, P z -> N z.
Lemma settled_ex : forall A B (N : A -> Prop) (N' : B -> Prop) (P : A -> Prop) (Q : A -> B -> Prop), settled N P -> (forall a, N a -> settled N' (Q a)) -> settled N' (fun b => exists a, P a /\ Q a b).
Proof.
  intros A B N N' P Q [P1 P2] HQ. split.
  - intros z z' (a & A1 & A2) (a' & B1 & B2). pose proof (P1 _ _ A1 B1). subst a'. exact (proj1 (HQ a (P2 a A1)) z z' A2 B2).
  - intros z (a & A1 & A2). exact (proj2 (HQ a (P2 a A1)) z A2).
Qed.
Lemma settled_iff : forall A (N P Q : A -> Prop), settled N P -> (forall z, Q z -> P z) -> settled N Q.
Proof. intros A N P Q [P1 P2] H. split; auto. Qed.
Lemma settled_pair : forall P Q, settled a_number P -> settled a_number Q -> settled a_complex (fun z => P (fst z) /\ Q (snd z)).
Proof.
  intros P Q [P1 P2] [Q1 Q2]. split; [|intros z [A B]; split; auto]. intros [x y] [x' y'] [A B] [C D]. cbn [fst snd] in *. f_equal; auto.
Qed.
Lemma settled_with : forall P, settled a_complex P -> decided a_complex (complex_with P).
Proof. intros P [P1 P2]. split; [intros r r' (z & -> & Z) (z' & -> & Z'); f_equal; auto|]. intros z (z' & Z & Z'). injection Z as ->. auto. Qed.

Lemma sum_s : forall x y, a_number x -> a_number y -> settled a_number (ieee_sum x y). Proof. exact sum_decided. Qed.
Lemma product_s : forall x y, a_number x -> a_number y -> settled a_number (ieee_product x y). Proof. exact product_decided. Qed.
Lemma difference_s : forall x y, a_number x -> a_number y -> settled a_number (ieee_difference x y). Proof. intros x y X Y. exact (sum_decided x _ X (opposite_number y Y)). Qed.
Lemma division_s : forall x y, a_number x -> a_number y -> settled a_number (ieee_division x y).
Proof.
  intros x y X Y. unfold ieee_division. destruct (zero_double y); [|exact (quotient_decided x y X Y)]. split; [congruence|]. intros z ->. destruct x; intros F; discriminate F.
Qed.
Lemma whole_s : forall t, a_number t -> settled a_number (ieee_whole t).
Proof.
  intros t T. unfold ieee_whole. destruct (finite t) eqn:F.
  - destruct (T F) as (p & P). split.
    + intros z z' A B. destruct (A p P) as [A1 A2], (B p P) as [B1 B2]. destruct (Z.eq_dec (truncated p) 0) as [Z|Z].
      * apply (same_double z z' _ A1 B1). rewrite (A2 Z), (B2 Z). reflexivity.
      * apply (double_unique z z' _ A1 B1). intros Q. apply Z. unfold Qeq in Q. cbn in Q. lia.
    + intros z A _. destruct (A p P). eauto.
  - split; [congruence|]. intros z -> F'. discriminate F'.
Qed.

Lemma complex_sum_s : forall x y, a_complex x -> a_complex y -> settled a_complex (complex_sum x y).
Proof. intros x y [X1 X2] [Y1 Y2]. apply settled_pair; apply sum_s; assumption. Qed.
Lemma complex_difference_s : forall x y, a_complex x -> a_complex y -> settled a_complex (complex_difference x y).
Proof. intros x y [X1 X2] [Y1 Y2]. apply settled_pair; apply difference_s; assumption. Qed.
Lemma complex_product_s : forall x y, a_complex x -> a_complex y -> settled a_complex (complex_product x y).
Proof.
  intros x y [X1 X2] [Y1 Y2]. apply (settled_iff _ _ (fun z => exists ac, ieee_product (fst x) (fst y) ac /\ exists bd, ieee_product (snd x) (snd y) bd /\ exists ad, ieee_product (fst x) (snd y) ad /\ exists bc, ieee_product (snd x) (fst y) bc /\ (ieee_difference ac bd (fst z) /\ ieee_sum ad bc (snd z)))); [|intros z (ac & bd & ad & bc & A1 & A2 & A3 & A4 & A5 & A6); exists ac; split; [exact A1|]; exists bd; split; [exact A2|]; exists ad; split; [exact A3|]; exists bc; split; [exact A4|]; exact (conj A5 A6)].
  repeat (apply (settled_ex _ _ a_number); [apply product_s; assumption|]; intros ? ?). apply (settled_pair (ieee_difference _ _) (ieee_sum _ _)); [apply difference_s|apply sum_s]; assumption.
Qed.
Lemma size_s : forall y, a_complex y -> settled a_number (square_size y).
Proof.
  intros y [Y1 Y2]. apply (settled_iff _ _ (fun z => exists cc, ieee_product (fst y) (fst y) cc /\ exists dd, ieee_product (snd y) (snd y) dd /\ ieee_sum cc dd z)); [|intros z (cc & dd & A1 & A2 & A3); exists cc; split; [exact A1|]; exists dd; exact (conj A2 A3)].
  repeat (apply (settled_ex _ _ a_number); [apply product_s; assumption|]; intros ? ?). apply sum_s; assumption.
Qed.
Lemma complex_quotient_s : forall x y, a_complex x -> a_complex y -> settled a_complex (complex_quotient x y).
Proof.
  intros x y X Y. pose proof (size_s y Y) as S. destruct X as [X1 X2], Y as [Y1 Y2]. apply (settled_iff _ _ (fun z => exists ac, ieee_product (fst x) (fst y) ac /\ exists bd, ieee_product (snd x) (snd y) bd /\ exists ad, ieee_product (fst x) (snd y) ad /\ exists bc, ieee_product (snd x) (fst y) bc /\ exists s, ieee_sum ac bd s /\ exists t, ieee_difference bc ad t /\ exists n, square_size y n /\ (ieee_division s n (fst z) /\ ieee_division t n (snd z)))); [|intros z (ac & bd & ad & bc & s & t & n & A1 & A2 & A3 & A4 & A5 & A6 & A7 & A8 & A9); exists ac; split; [exact A1|]; exists bd; split; [exact A2|];
    exists ad; split; [exact A3|]; exists bc; split; [exact A4|]; exists s; split; [exact A5|]; exists t; split; [exact A6|]; exists n; split; [exact A7|]; exact (conj A8 A9)].
  do 4 (apply (settled_ex _ _ a_number); [apply product_s; assumption|]; intros ? ?). apply (settled_ex _ _ a_number); [apply sum_s; assumption|]; intros ? ?. apply (settled_ex _ _ a_number); [apply difference_s; assumption|]; intros ? ?.
  apply (settled_ex _ _ a_number); [exact S|]; intros ? ?. apply (settled_pair (ieee_division _ _) (ieee_division _ _)); apply division_s; assumption.
Qed.
Lemma complex_reciprocal_s : forall y, a_complex y -> settled a_complex (complex_reciprocal y).
Proof.
  intros y Y. pose proof (size_s y Y) as S. destruct Y as [Y1 Y2]. apply (settled_ex _ _ a_number); [exact S|]; intros ? ?. apply (settled_pair (ieee_division _ _) (ieee_division _ _)); apply division_s; try assumption. apply opposite_number. assumption.
Qed.
Lemma complex_remainder_s : forall x y, a_complex x -> a_complex y -> settled a_complex (complex_remainder x y).
Proof.
  intros x y X Y. apply (settled_iff _ _ (fun z => exists q, complex_quotient x y q /\ exists k, (ieee_whole (fst q) (fst k) /\ ieee_whole (snd q) (snd k)) /\ exists p, complex_product y k p /\ complex_difference x p z)); [|intros z (q & k & p & A1 & A2 & A3 & A4 & A5); exists q; split; [exact A1|]; exists k; split; [exact (conj A2 A3)|]; exists p; exact (conj A4 A5)].
  apply (settled_ex _ _ a_complex); [apply complex_quotient_s; assumption|]; intros q [Q1 Q2]. apply (settled_ex _ _ a_complex); [apply (settled_pair (ieee_whole _) (ieee_whole _)); apply whole_s; assumption|]; intros k K.
  apply (settled_ex _ _ a_complex); [apply complex_product_s; assumption|]; intros p P. apply complex_difference_s; assumption.
Qed.
Lemma in_turn_s : forall op : c64 -> c64 -> c64 -> Prop, (forall x y, a_complex x -> a_complex y -> settled a_complex (op x y)) -> forall xs, Forall a_complex xs -> forall a, a_complex a -> settled a_complex (in_turn op a xs).
Proof.
  intros op Hop xs Hx. induction Hx as [|x xs X _ IH]; intros a A; cbn [in_turn]; [split; [congruence|intros z ->; exact A]|]. apply (settled_ex _ _ a_complex); [apply Hop; assumption|]. intros b B. apply IH. exact B.
Qed.
Lemma zero_number : a_number (S754_zero false). Proof. intros _. exists 0%Q. reflexivity. Qed.
Lemma literal_s : forall q, (1 <= q)%Q -> settled a_number (rounds q).
Proof. intros q Q. split; [intros x y X Y; apply (rounds_unique q x y X Y); rewrite (rounds_positive q x X Q), (rounds_positive q y Y Q); reflexivity|intros x X; apply (rounds_number q x X)]. Qed.
Lemma is_s : forall v, a_number v -> settled a_number (fun z => z = v). Proof. intros v V. split; [congruence|intros z ->; exact V]. Qed.
Lemma with_one_decided : forall f xs, (forall x, In x xs -> decided a_complex (f x)) -> decided a_complex (with_one f xs).
Proof. intros f xs H. unfold with_one. destruct xs as [|x [|y xs]]; [apply decided_is; discriminate| |apply decided_is; discriminate]. apply H. left. reflexivity. Qed.

Section Library.
Variable L : clib.
Hypothesis HL : proper_library L.
Variable vars : str -> option c64.
Hypothesis HV : forall x v, vars x = Some v -> a_complex v.
Lemma c_operation_decided : forall o x y, a_complex x -> a_complex y -> decided a_complex (complex_operation L o x y).
Proof using HL.
  intros o x y X Y. unfold complex_operation.
  destruct (named o "+"); [apply settled_with, complex_sum_s; assumption|]. destruct (named o "-"); [apply settled_with, complex_difference_s; assumption|]. destruct (named o "*"); [apply settled_with, complex_product_s; assumption|].
  destruct (named o "/"); [destruct (complex_zero y); [apply decided_is; discriminate|apply settled_with, complex_quotient_s; assumption]|].
  destruct (named o "mod"); [destruct (complex_zero y); [apply decided_is; discriminate|apply settled_with, complex_remainder_s; assumption]|].
  destruct (named o "^"); [apply decided_is; intros z Z; injection Z as <-; apply HL|]. split; intros; contradiction.
Qed.
Lemma names_apart : forall f m m', named f m = true -> named f m' = true -> lit m = lit m'.
Proof using. clear. intros f m m' A B. unfold named in *. apply str_eqb_eq in A. apply str_eqb_eq in B. congruence. Qed.
Lemma lit_inj : forall a b, lit a = lit b -> a = b.
Proof using.
  clear. intros a. induction a as [|x a IH]; intros [|y b] H; try discriminate; [reflexivity|]. injection H as H1 H2. f_equal; [|apply IH; exact H2].
  rewrite <- (Ascii.ascii_N_embedding x), <- (Ascii.ascii_N_embedding y). f_equal. exact H1.
Qed.
Lemma c_call_decided : forall f xs, Forall a_complex xs -> decided a_complex (complex_call L f xs).
Proof using HL.
  clear HV vars. intros f xs Hx. assert (Hx' : forall x, In x xs -> a_complex x) by (apply Forall_forall; exact Hx). unfold complex_call.
  destruct (named f "sum"). { destruct xs as [|x xs]; [apply decided_is; discriminate|]. inversion Hx; subst. apply settled_with, in_turn_s; try assumption. exact complex_sum_s. }
  destruct (named f "product"). { destruct xs as [|x xs]; [apply decided_is; discriminate|]. inversion Hx; subst. apply settled_with, in_turn_s; try assumption. exact complex_product_s. }
  destruct (named f "avg").
  { destruct xs as [|x xs]; [apply decided_is; discriminate|]. inversion Hx; subst. destruct (in_turn_s _ complex_sum_s xs ltac:(assumption) x ltac:(assumption)) as [U N].
    assert (G : (1 <= inject_Z (Z.of_nat (List.length (x :: xs))))%Q) by (change 1%Q with (inject_Z 1); rewrite <- Zle_Qle; cbn [List.length]; lia). destruct (literal_s _ G) as [U' N']. split.
    - intros r r' (s & k & S & K & Z) (s' & k' & S' & K' & Z'). pose proof (U _ _ S S'). subst s'. pose proof (U' _ _ K K'). subst k'. exact (proj1 (settled_with _ (complex_quotient_s s (k, S754_zero false) (N s S) (conj (N' k K) zero_number))) _ _ Z Z').
    - intros z (s & k & S & K & Z). exact (proj2 (settled_with _ (complex_quotient_s s (k, S754_zero false) (N s S) (conj (N' k K) zero_number))) _ Z). }
  destruct HL as (H1 & H2 & H3). destruct (named f "log").
  { destruct xs as [|x [|b [|y xs]]]; try (apply decided_is; discriminate).
    - split; [intros r r' (t & T & ->) (t' & T' & ->); rewrite (double_unique t t' 10%Q T T') by discriminate; reflexivity|]. intros z (t & T & Z). injection Z as ->. apply H3.
    - destruct (zero_double (snd b)); apply decided_is; [discriminate|]. intros z Z. injection Z as <-. apply H3. }
  assert (Apart : forall m nm m', In m own_functions -> In (nm, m') reciprocals -> lit m <> lit nm).
  { assert (X : forallb (fun m => forallb (fun p => negb (str_eqb (lit m) (lit (fst p)))) reciprocals) own_functions = true) by (vm_compute; reflexivity). rewrite forallb_forall in X.
    intros m nm m' A B E. specialize (X m A). rewrite forallb_forall in X. specialize (X _ B). cbn [fst] in X. rewrite E, str_eqb_refl in X. discriminate X. }
  assert (Once : forall nm m m', In (nm, m) reciprocals -> In (nm, m') reciprocals -> m = m').
  { assert (X : forallb (fun p => forallb (fun q => negb (str_eqb (lit (fst p)) (lit (fst q))) || str_eqb (lit (snd p)) (lit (snd q))) reciprocals) reciprocals = true) by (vm_compute; reflexivity). rewrite forallb_forall in X.
    intros nm m m' A B. specialize (X _ A). rewrite forallb_forall in X. specialize (X _ B). cbn [fst snd] in X. rewrite str_eqb_refl in X. cbn [negb orb] in X. apply str_eqb_eq in X. exact (lit_inj _ _ X). }
  assert (One : forall m, decided a_complex (with_one (fun x r => r = Ok (c_method L (lit m) x)) xs)).
  { intros m. apply with_one_decided. intros x _. apply decided_is. intros z Z. injection Z as <-. apply H1. }
  assert (Inv : forall m, decided a_complex (with_one (fun x => complex_with (complex_reciprocal (c_method L (lit m) x))) xs)).
  { intros m. apply with_one_decided. intros x _. apply settled_with, complex_reciprocal_s. apply H1. }
  split.
  - intros r r' [(m & A & B & C)|(nm & m & A & B & C)] [(m' & A' & B' & C')|(nm' & m' & A' & B' & C')].
    + pose proof (lit_inj _ _ (names_apart f m m' B B')). subst m'. exact (proj1 (One m) _ _ C C').
    + exfalso. exact (Apart _ _ _ A A' (names_apart f _ _ B B')).
    + exfalso. exact (Apart _ _ _ A' A (names_apart f _ _ B' B)).
    + pose proof (lit_inj _ _ (names_apart f nm nm' B B')). subst nm'. pose proof (Once _ _ _ A A'). subst m'. exact (proj1 (Inv m) _ _ C C').
  - intros z [(m & A & B & C)|(nm & m & A & B & C)]; [exact (proj2 (One m) z C)|exact (proj2 (Inv m) z C)].
Qed.
Lemma complex_decided : forall e, complex_plain e -> decided a_complex (complex_worth L vars e).
Proof using HL HV.
  refine (expr_ind' _ (fun e => complex_plain e -> decided a_complex (complex_worth L vars e)) _ _ _ _ _ _ _ _ _); cbn [complex_plain complex_worth].
  - intros v N. apply decided_is. intros z Z. injection Z as <-. exact N.
  - intros x _. apply decided_is. intros z Z. destruct (vars x) as [v|] eqn:V; [injection Z as <-; exact (HV x v V)|discriminate].
  - intros x _. destruct (named x "pi"); [apply settled_with, (settled_pair (rounds _) (fun z => z = _)); [apply literal_s; discriminate|apply is_s, zero_number]|].
    destruct (named x "e"); [apply settled_with, (settled_pair (rounds _) (fun z => z = _)); [apply literal_s; discriminate|apply is_s, zero_number]|].
    destruct (named x "i"); [|split; intros; contradiction]. apply settled_with, (settled_pair (fun z => z = _) (fun z => stands_for z 1)); [apply is_s, zero_number|]. split; [intros z z' A B; apply (double_unique z z' 1%Q A B); discriminate|intros z A _; eauto].
  - intros g e IH. exact IH.
  - intros f g args IH P. apply (decided_followed _ _ (Forall a_complex)); [|intros xs X; exact (c_call_decided f xs X)].
    revert P. induction IH as [|e es A _ IHes]; cbn [map complex_all]; [intros _; apply decided_is; intros z Z; injection Z as <-; constructor|].
    intros [P Ps]. apply (decided_followed _ _ a_complex); [exact (A P)|]. intros x X. apply (decided_followed _ _ (Forall a_complex)); [exact (IHes Ps)|]. intros xs Xs. apply decided_is. intros z Z. injection Z as <-. constructor; assumption.
  - intros u e IH P. apply (decided_followed _ _ a_complex); [exact (IH P)|]. intros x [X1 X2]. apply decided_is. intros z Z. injection Z as <-. destruct (named u "-"); [split; apply opposite_number; assumption|split; assumption].
  - intros e u IH P. split; intros; contradiction.
  - intros o l r IHl IHr [Pl Pr]. apply (decided_followed _ _ a_complex); [exact (IHl Pl)|]. intros x X. apply (decided_followed _ _ a_complex); [exact (IHr Pr)|]. intros y Y. exact (c_operation_decided o x y X Y).
  - intros l r IHl IHr [Pl Pr]. apply (decided_followed _ _ a_complex); [exact (IHl Pl)|]. intros x X. apply (decided_followed _ _ a_complex); [exact (IHr Pr)|]. intros y Y. apply settled_with, complex_product_s; assumption.
Qed.
End Library.
