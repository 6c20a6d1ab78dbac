(** * Proofs about comparison and hashing ignoring case, names, string helpers *)
From Coq Require Import List NArith Bool Lia ZifyBool ZifyN.
From Verif Require Import ModelBase ModelContext ModelText ModelDefault ModelStr SpecText.
Import ListNotations.
Local Open Scope N_scope.

(** ** Lexicographic comparison *)
Section Lex.
Context {A : Type}.
Variable cmp : A -> A -> comparison.
Fixpoint lex (a b : list A) : comparison :=
  match a, b with
  | [], [] => Eq | [], _ => Lt | _, [] => Gt
  | x :: a', y :: b' => match cmp x y with Eq => lex a' b' | r => r end
  end.
Hypothesis cmp_eq : forall x y, cmp x y = Eq <-> x = y.
Hypothesis cmp_anti : forall x y, cmp y x = CompOpp (cmp x y).
Hypothesis cmp_trans : forall x y z, cmp x y = Lt -> cmp y z = Lt -> cmp x z = Lt.
Lemma lex_eq : forall a b, lex a b = Eq <-> a = b.
Proof.
  induction a as [|x a IH]; intros [|y b]; simpl; split; try discriminate; auto.
  - destruct (cmp x y) eqn:Ec; try discriminate. apply cmp_eq in Ec. intros H. apply IH in H. congruence.
  - intros H. injection H as -> ->. rewrite (proj2 (cmp_eq y y) eq_refl). apply IH. reflexivity.
Qed.
Lemma lex_anti : forall a b, lex b a = CompOpp (lex a b).
Proof.
  induction a as [|x a IH]; intros [|y b]; simpl; auto. rewrite (cmp_anti x y). destruct (cmp x y); simpl; auto.
Qed.
Lemma lex_trans : forall a b c, lex a b = Lt -> lex b c = Lt -> lex a c = Lt.
Proof.
  induction a as [|x a IH]; intros [|y b] [|z c]; simpl; try discriminate; auto.
  intros H1 H2. destruct (cmp x y) eqn:Exy; try discriminate.
  - apply cmp_eq in Exy. subst y. destruct (cmp x z) eqn:Exz; try discriminate; auto. eapply IH; eauto.
  - destruct (cmp y z) eqn:Eyz; try discriminate.
    + apply cmp_eq in Eyz. subst z. rewrite Exy. reflexivity.
    + rewrite (cmp_trans x y z Exy Eyz). reflexivity.
Qed.
End Lex.

Lemma cmp_chars_lex : forall a b, cmp_chars a b = lex N.compare a b.
Proof. induction a as [|x a IH]; intros [|y b]; simpl; rewrite ?IH; reflexivity. Qed.
Lemma N_cmp_trans : forall x y z : N, (x ?= y) = Lt -> (y ?= z) = Lt -> (x ?= z) = Lt.
Proof. intros x y z. rewrite !N.compare_lt_iff. lia. Qed.
Lemma cmp_chars_eq : forall a b, cmp_chars a b = Eq <-> a = b.
Proof. intros. rewrite cmp_chars_lex. apply lex_eq. exact N.compare_eq_iff. Qed.
Lemma cmp_chars_anti : forall a b, cmp_chars b a = CompOpp (cmp_chars a b).
Proof. intros. rewrite !cmp_chars_lex. apply lex_anti. exact (fun x y => N.compare_antisym x y). Qed.
Lemma cmp_chars_trans : forall a b c, cmp_chars a b = Lt -> cmp_chars b c = Lt -> cmp_chars a c = Lt.
Proof. intros a b c. rewrite !cmp_chars_lex. apply lex_trans; [exact N.compare_eq_iff|exact N_cmp_trans]. Qed.

Section Env.
Variable E : env.
Notation lower := (map (to_lowercase E)).

Lemma cmp_lower : forall a b, cmp_ignore_case E a b = lex cmp_chars (lower a) (lower b).
Proof.
  induction a as [|x a IH]; intros [|y b]; simpl; auto. rewrite IH. reflexivity.
Qed.
Lemma cmp_ic_eq : forall a b, cmp_ignore_case E a b = Eq <-> lower a = lower b.
Proof. intros. rewrite cmp_lower. apply lex_eq. exact cmp_chars_eq. Qed.
Lemma cmp_ic_anti : forall a b, cmp_ignore_case E b a = CompOpp (cmp_ignore_case E a b).
Proof. intros. rewrite !cmp_lower. apply lex_anti. exact cmp_chars_anti. Qed.
Lemma cmp_ic_trans : forall a b c, cmp_ignore_case E a b = Lt -> cmp_ignore_case E b c = Lt -> cmp_ignore_case E a c = Lt.
Proof. intros a b c. rewrite !cmp_lower. apply lex_trans; [exact cmp_chars_eq|exact cmp_chars_trans]. Qed.
Lemma eq_ic : forall a b, eq_ignore_case E a b = true <-> lower a = lower b.
Proof.
  intros a b. rewrite <- cmp_ic_eq. unfold eq_ignore_case. destruct (cmp_ignore_case E a b); split; congruence.
Qed.
Lemma eq_ic_lower : forall a a' b b', lower a = lower a' -> lower b = lower b' -> eq_ignore_case E a b = eq_ignore_case E a' b'.
Proof.
  intros a a' b b' H1 H2. apply eq_true_iff_eq. rewrite !eq_ic, H1, H2. reflexivity.
Qed.
Lemma eq_ic_refl : forall a, eq_ignore_case E a a = true.
Proof. intros. apply eq_ic. reflexivity. Qed.
Lemma eq_ic_sym : forall a b, eq_ignore_case E a b = eq_ignore_case E b a.
Proof. intros. apply eq_true_iff_eq. rewrite !eq_ic. split; congruence. Qed.
Lemma eq_ic_trans : forall a b c, eq_ignore_case E a b = true -> eq_ignore_case E b c = true -> eq_ignore_case E a c = true.
Proof. intros a b c. rewrite !eq_ic. congruence. Qed.

(** ** ASCII case *)
Lemma fold_letter : forall x y, to_ascii_lowercase x = to_ascii_lowercase y <-> same_letter x y.
Proof.
  intros x y. unfold to_ascii_lowercase, same_letter, is_upper, between.
  destruct ((65 <=? x) && (x <=? 90)) eqn:E1; destruct ((65 <=? y) && (y <=? 90)) eqn:E2; lia.
Qed.
Lemma fold_alike : forall a b, map to_ascii_lowercase a = map to_ascii_lowercase b <-> ascii_alike a b.
Proof.
  unfold ascii_alike. induction a as [|x a IH]; intros [|y b]; simpl; split; intros H; try discriminate; try (inversion H; fail); auto.
  - injection H as H1 H2. constructor; [apply fold_letter; exact H1|apply IH; exact H2].
  - inversion H; subst. f_equal; [apply fold_letter; assumption|apply IH; assumption].
Qed.
Lemma lowercase_fold : forall x, to_lowercase E (to_ascii_lowercase x) = to_lowercase E x.
Proof.
  intros x. unfold to_lowercase, to_ascii_lowercase, is_ascii, is_upper, between.
  destruct ((65 <=? x) && (x <=? 90)) eqn:Eu; [|rewrite Eu; reflexivity].
  assert (H1 : (x + 32 <? 128) = true) by lia. assert (H2 : (x <? 128) = true) by lia.
  assert (H3 : (65 <=? x + 32) && (x + 32 <=? 90) = false) by lia. rewrite H1, H2, H3. reflexivity.
Qed.
Lemma alike_lower : forall a b, ascii_alike a b -> lower a = lower b.
Proof.
  intros a b H. apply fold_alike in H. rewrite <- (map_ext _ _ lowercase_fold a), <- (map_ext _ _ lowercase_fold b).
  rewrite <- (map_map to_ascii_lowercase (to_lowercase E) a), <- (map_map to_ascii_lowercase (to_lowercase E) b), H. reflexivity.
Qed.

Lemma alike_refl : forall a, ascii_alike a a.
Proof. intros. apply fold_alike. reflexivity. Qed.
Lemma alike_sym : forall a b, ascii_alike a b -> ascii_alike b a.
Proof. intros a b. rewrite <- !fold_alike. congruence. Qed.
Lemma alike_trans : forall a b c, ascii_alike a b -> ascii_alike b c -> ascii_alike a c.
Proof. intros a b c. rewrite <- !fold_alike. congruence. Qed.

(** ASCII strings: equal ignoring case exactly when they differ only in ASCII case. *)
Lemma ascii_eq_ic : forall a b, ascii_string a -> ascii_string b -> eq_ignore_case E a b = true -> ascii_alike a b.
Proof.
  intros a b Ha Hb H. apply fold_alike. apply eq_ic in H. revert b Hb H. induction Ha as [|x a Hx Ha IH]; intros b Hb H.
  - destruct b; [reflexivity|discriminate].
  - destruct Hb as [|y b Hy Hb]; [discriminate|]. simpl in H. injection H as H1 H2. simpl. f_equal; [|apply IH; assumption].
    unfold to_lowercase, is_ascii in H1. assert (E1 : (x <? 128) = true) by lia. assert (E2 : (y <? 128) = true) by lia.
    rewrite E1, E2 in H1. injection H1 as H1. exact H1.
Qed.

End Env.

(** ** UTF-8 *)
Lemma utf8_char_fold : forall x, map to_ascii_lowercase (utf8_char x) = utf8_char (to_ascii_lowercase x).
Proof.
  intros x. unfold utf8_char. destruct (x <? 128) eqn:E1.
  - assert (H : (to_ascii_lowercase x <? 128) = true) by (unfold to_ascii_lowercase, is_upper, between; destruct ((65 <=? x) && (x <=? 90)) eqn:Eu; lia).
    rewrite H. reflexivity.
  - assert (H : to_ascii_lowercase x = x) by (unfold to_ascii_lowercase, is_upper, between; destruct ((65 <=? x) && (x <=? 90)) eqn:Eu; lia).
    rewrite H, E1.
    assert (G : forall y, 128 <= y -> to_ascii_lowercase y = y)
      by (intros y Hy; unfold to_ascii_lowercase, is_upper, between; destruct ((65 <=? y) && (y <=? 90)) eqn:Eu; lia).
    destruct (x <? 2048); [|destruct (x <? 65536)]; cbn [map]; rewrite !G; auto;
      match goal with |- 128 <= ?k + ?y => apply (N.le_trans _ k); [lia|apply N.le_add_r] end.
Qed.
Lemma hash_fold : forall a, hash_input a = utf8 (map to_ascii_lowercase a).
Proof.
  unfold hash_input, utf8. induction a as [|x a IH]; [reflexivity|]. cbn [map concat]. rewrite map_app. f_equal; [apply utf8_char_fold|exact IH].
Qed.

(** A prefix code: the first byte gives the length. *)
Definition decode_char (l : list N) : option (N * list N) :=
  match l with
  | [] => None
  | b0 :: l0 =>
      if b0 <? 128 then Some (b0, l0)
      else match l0 with
      | [] => None
      | b1 :: l1 =>
          if b0 <? 224 then Some ((b0 - 192) * 64 + (b1 - 128), l1)
          else match l1 with
          | [] => None
          | b2 :: l2 =>
              if b0 <? 240 then Some ((b0 - 224) * 4096 + (b1 - 128) * 64 + (b2 - 128), l2)
              else match l2 with
              | [] => None
              | b3 :: l3 => Some ((b0 - 240) * 262144 + (b1 - 128) * 4096 + (b2 - 128) * 64 + (b3 - 128), l3)
              end
          end
      end
  end.
Lemma decode_utf8_char : forall x r, x <= 1114111 -> decode_char (utf8_char x ++ r) = Some (x, r).
Proof.
  intros x r Hx. unfold utf8_char.
  pose proof (N.div_mod x 64 ltac:(lia)) as Dx. pose proof (N.mod_lt x 64 ltac:(lia)) as Mx.
  assert (A : x / 4096 = x / 64 / 64) by (rewrite N.div_div by lia; reflexivity).
  assert (B : x / 262144 = x / 64 / 64 / 64) by (rewrite !N.div_div by lia; reflexivity).
  rewrite A, B. clear A B.
  pose proof (N.div_mod (x / 64) 64 ltac:(lia)) as Dx2. pose proof (N.mod_lt (x / 64) 64 ltac:(lia)) as Mx2.
  pose proof (N.div_mod (x / 64 / 64) 64 ltac:(lia)) as Dx3. pose proof (N.mod_lt (x / 64 / 64) 64 ltac:(lia)) as Mx3.
  set (x1 := x / 64) in *. set (x2 := x1 / 64) in *. set (x3 := x2 / 64) in *.
  set (p0 := x mod 64) in *. set (p1 := x1 mod 64) in *. set (p2 := x2 mod 64) in *.
  clearbody p0 p1 p2 x3. clearbody x2. clearbody x1.
  destruct (x <? 128) eqn:X1; [|destruct (x <? 2048) eqn:X2; [|destruct (x <? 65536) eqn:X3]];
    cbn [app decode_char].
  - rewrite X1. reflexivity.
  - assert (E1 : (192 + x1 <? 128) = false) by lia. assert (E2 : (192 + x1 <? 224) = true) by lia.
    rewrite E1, E2. do 2 f_equal. lia.
  - assert (E1 : (224 + x2 <? 128) = false) by lia. assert (E2 : (224 + x2 <? 224) = false) by lia.
    assert (E3 : (224 + x2 <? 240) = true) by lia. rewrite E1, E2, E3. do 2 f_equal. lia.
  - assert (E1 : (240 + x3 <? 128) = false) by lia. assert (E2 : (240 + x3 <? 224) = false) by lia.
    assert (E3 : (240 + x3 <? 240) = false) by lia. rewrite E1, E2, E3. do 2 f_equal. lia.
Qed.
Lemma utf8_char_inj : forall x y r s, x <= 1114111 -> y <= 1114111 -> utf8_char x ++ r = utf8_char y ++ s -> x = y /\ r = s.
Proof.
  intros x y r s Hx Hy H. pose proof (decode_utf8_char x r Hx) as E. rewrite H, decode_utf8_char in E by exact Hy.
  injection E as -> ->. auto.
Qed.
Lemma utf8_inj : forall a b, unicode_string a -> unicode_string b -> utf8 a = utf8 b -> a = b.
Proof.
  assert (S : forall x, is_scalar x = true -> x <= 1114111) by (intros x; unfold is_scalar, between; lia).
  assert (NE : forall x r, utf8_char x ++ r <> []) by (intros x r; unfold utf8_char; destruct (x <? 128), (x <? 2048), (x <? 65536); discriminate).
  intros a b Ha. revert b. induction Ha as [|x a Hx Ha IH]; intros b Hb H.
  - destruct Hb as [|y b Hy Hb]; [reflexivity|]. symmetry in H. apply NE in H. contradiction.
  - destruct Hb as [|y b Hy Hb]; [apply NE in H; contradiction|].
    unfold utf8 in H. simpl in H. apply utf8_char_inj in H; auto. destruct H as [-> H]. f_equal. apply IH; assumption.
Qed.
Lemma scalar_fold : forall a, unicode_string a -> unicode_string (map to_ascii_lowercase a).
Proof.
  intros a H. induction H as [|x a Hx H IH]; simpl; constructor; auto. revert Hx.
  unfold is_scalar, to_ascii_lowercase, is_upper, between. destruct ((65 <=? x) && (x <=? 90)) eqn:E; lia.
Qed.

(** Two strings feed the hasher the same bytes exactly when they differ only in ASCII case. *)
Lemma alike_hash : forall a b, ascii_alike a b -> hash_input a = hash_input b.
Proof. intros a b H. apply fold_alike in H. rewrite !hash_fold, H. reflexivity. Qed.
Lemma hash_alike : forall a b, unicode_string a -> unicode_string b -> hash_input a = hash_input b -> ascii_alike a b.
Proof.
  intros a b Ha Hb H. rewrite !hash_fold in H. apply fold_alike. apply utf8_inj; auto using scalar_fold.
Qed.

(** ** Keys of maps *)
Section Keys.
Variable E : env.
Lemma key_match_alike : forall q q' k k', ascii_alike q q' -> ascii_alike k k' -> key_match E q k = key_match E q' k'.
Proof.
  intros q q' k k' Hq Hk. unfold key_match. rewrite (alike_hash _ _ Hq), (alike_hash _ _ Hk).
  rewrite (eq_ic_lower E q q' k k') by (apply alike_lower; assumption). reflexivity.
Qed.
Lemma key_match_self : forall q q', ascii_alike q q' -> key_match E q q' = true.
Proof.
  intros q q' H. unfold key_match. rewrite (alike_hash _ _ H), str_eqb_refl. simpl. apply eq_ic. apply alike_lower. exact H.
Qed.
Lemma key_match_eq : forall q k, key_match E q k = true -> eq_ignore_case E q k = true.
Proof. intros q k H. apply andb_true_iff in H. apply H. Qed.
Lemma key_match_ascii : forall q k, ascii_string q -> ascii_string k -> key_match E q k = eq_ignore_case E q k.
Proof.
  intros q k Hq Hk. destruct (eq_ignore_case E q k) eqn:H.
  - apply key_match_self. eapply ascii_eq_ic; eassumption.
  - unfold key_match. rewrite H. apply andb_false_r.
Qed.
End Keys.

(** ** Names *)
Lemma trim_start_nil : forall s, trim_start s = [] <-> Forall (fun c => is_whitespace c = true) s.
Proof.
  induction s as [|c s IH]; simpl; [split; auto|]. destruct (is_whitespace c) eqn:E.
  - rewrite IH. split; [intros; constructor; auto|intros H; inversion H; auto].
  - split; [discriminate|]. intros H. inversion H; congruence.
Qed.
Lemma trim_nil : forall s, trim s = [] <-> Forall (fun c => is_whitespace c = true) s.
Proof.
  intros s. unfold trim. split.
  - intros H. assert (H' : trim_start (rev (trim_start s)) = []) by (rewrite <- (rev_involutive (trim_start _)), H; reflexivity).
    apply trim_start_nil in H'. apply trim_start_nil. destruct (trim_start s) as [|c r] eqn:E; [reflexivity|exfalso].
    assert (Hc : is_whitespace c = false).
    { clear -E. revert c r E. induction s as [|x s IH]; intros c r E; [discriminate|]. simpl in E. destruct (is_whitespace x) eqn:Ex; [eauto|].
      injection E as -> _. exact Ex. }
    apply Forall_rev in H'. rewrite rev_involutive in H'. inversion H'; congruence.
  - intros H. apply trim_start_nil in H. rewrite H. reflexivity.
Qed.
Lemma check_name : forall s, check_token_name s = Ok tt <-> valid_name s.
Proof.
  intros s. unfold check_token_name, valid_name. destruct (trim s) as [|t0 r] eqn:Et.
  - split; [discriminate|]. intros (H1 & H2 & _). apply trim_nil in Et. apply Exists_exists in H1. destruct H1 as (x & Hin & Hx).
    rewrite Forall_forall in Et. rewrite Et in Hx by exact Hin. discriminate.
  - assert (Hne : ~ Forall (fun c => is_whitespace c = true) s) by (rewrite <- trim_nil, Et; discriminate).
    destruct (existsb is_whitespace s) eqn:Ew.
    + split; [discriminate|]. intros (_ & H2 & _). apply existsb_exists in Ew. destruct Ew as (x & Hin & Hx).
      rewrite Forall_forall in H2. rewrite H2 in Hx by exact Hin. discriminate.
    + assert (Hw : Forall (fun c => is_whitespace c = false) s).
      { apply Forall_forall. intros x Hin. destruct (is_whitespace x) eqn:Ex; [|reflexivity].
        assert (existsb is_whitespace s = true) by (apply existsb_exists; eauto). congruence. }
      destruct (existsb is_control s) eqn:Ec.
      * split; [discriminate|]. intros (_ & _ & H3). apply existsb_exists in Ec. destruct Ec as (x & Hin & Hx).
        rewrite Forall_forall in H3. rewrite H3 in Hx by exact Hin. discriminate.
      * split; [intros _|reflexivity]. split; [|split; [exact Hw|]].
        -- destruct s as [|x s]; [discriminate Et|]. constructor. inversion Hw; assumption.
        -- apply Forall_forall. intros x Hin. destruct (is_control x) eqn:Ex; [|reflexivity].
           assert (existsb is_control s = true) by (apply existsb_exists; eauto). congruence.
Qed.
Lemma check_name_cases : forall s, check_token_name s = Ok tt \/ exists k, check_token_name s = Err k.
Proof.
  intros s. unfold check_token_name. destruct (trim s); eauto. destruct (existsb is_whitespace s); eauto.
  destruct (existsb is_control s); eauto.
Qed.

(** ** String helpers *)
Lemma eq_char_spec : forall s ch, eq_char s ch = true <-> s = [ch].
Proof.
  intros [|c [|d s]] ch; unfold eq_char; simpl; try (split; [discriminate|discriminate]).
  - rewrite andb_true_r. unfold char_eqb. rewrite N.eqb_eq. split; congruence.
  - rewrite andb_false_r. split; discriminate.
Qed.
Lemma single_char_spec : forall s ch, single_char s = Some ch <-> s = [ch].
Proof.
  intros [|c [|d s]] ch; unfold single_char; simpl; split; try discriminate; congruence.
Qed.
Section Str.
Variable ualnum : char -> bool.
Notation alnum := (is_alphanumeric ualnum).
Notation low := to_ascii_lowercase.
Notation up := to_ascii_uppercase.
Lemma case_cases : forall c, (is_upper c = true /\ low c = c + 32 /\ up c = c /\ c < 128) \/
  (is_lower c = true /\ low c = c /\ up c = c - 32 /\ c < 128 /\ 97 <= c) \/ (low c = c /\ up c = c /\ is_alpha c = false).
Proof.
  intros c. unfold is_alpha, to_ascii_lowercase, to_ascii_uppercase, is_upper, is_lower, between.
  destruct ((65 <=? c) && (c <=? 90)) eqn:E1; destruct ((97 <=? c) && (c <=? 122)) eqn:E2; lia.
Qed.
Lemma low_low : forall c, low (low c) = low c.
Proof. intros c. apply fold_letter. unfold same_letter, to_ascii_lowercase, is_upper, between. destruct ((65 <=? c) && (c <=? 90)) eqn:E; lia. Qed.
Lemma up_up : forall c, up (up c) = up c.
Proof.
  intros c. unfold to_ascii_uppercase, is_lower, between. destruct ((97 <=? c) && (c <=? 122)) eqn:E; [|rewrite E; reflexivity].
  destruct ((97 <=? c - 32) && (c - 32 <=? 122)) eqn:E2; lia.
Qed.
Lemma low_letter : forall c, same_letter c (low c).
Proof. intros c. unfold same_letter, to_ascii_lowercase, is_upper, between. destruct ((65 <=? c) && (c <=? 90)) eqn:E; lia. Qed.
Lemma up_letter : forall c, same_letter c (up c).
Proof. intros c. unfold same_letter, to_ascii_uppercase, is_lower, between. destruct ((97 <=? c) && (c <=? 122)) eqn:E; lia. Qed.
Lemma letter_alnum : forall c d, same_letter c d -> alnum c = alnum d.
Proof.
  intros c d [->|[H|H]]; auto; unfold is_alphanumeric, is_ascii, is_alphanumeric_ascii, is_alpha, is_upper, is_lower, is_digit, between.
  - assert (E1 : (c <? 128) = true) by lia. assert (E2 : (d <? 128) = true) by lia. rewrite E1, E2. lia.
  - assert (E1 : (c <? 128) = true) by lia. assert (E2 : (d <? 128) = true) by lia. rewrite E1, E2. lia.
Qed.
Lemma letter_space : forall c d, same_letter c d -> is_whitespace c = is_whitespace d.
Proof. intros c d [->|[H|H]]; auto; unfold is_whitespace, between; lia. Qed.
Lemma space_alnum : forall c, is_whitespace c = true -> alnum c = false.
Proof.
  intros c H. unfold is_alphanumeric, is_ascii. destruct (c <? 128) eqn:E; [|rewrite H; reflexivity].
  revert H E. unfold is_whitespace, is_alphanumeric_ascii, is_alpha, is_upper, is_lower, is_digit, between. lia.
Qed.
Lemma space_low : forall c, is_whitespace c = true -> low c = c.
Proof. intros c. unfold is_whitespace, to_ascii_lowercase, is_upper, between. destruct ((65 <=? c) && (c <=? 90)) eqn:E; lia. Qed.

Lemma sentence_letters : forall s b, ascii_alike s (sentence_loop ualnum b s).
Proof.
  induction s as [|c s IH]; intros b; simpl; [constructor|].
  destruct (negb b && alnum c); constructor; auto using low_letter, up_letter; apply IH.
Qed.
Lemma sentence_idem : forall s b, sentence_loop ualnum b (sentence_loop ualnum b s) = sentence_loop ualnum b s.
Proof.
  induction s as [|c s IH]; intros b; simpl; [reflexivity|]. destruct (negb b && alnum c) eqn:E; simpl.
  - rewrite <- (letter_alnum _ _ (up_letter c)), E, up_up, IH. reflexivity.
  - rewrite <- (letter_alnum _ _ (low_letter c)), E, low_low, IH. reflexivity.
Qed.
Lemma sentence_done : forall s, sentence_loop ualnum true s = map low s.
Proof. induction s as [|c s IH]; simpl; [reflexivity|]. rewrite IH. reflexivity. Qed.
Lemma sentence_first : forall pre c post, Forall (fun x => alnum x = false) pre -> alnum c = true ->
  to_sentence_case ualnum (pre ++ c :: post) = map low pre ++ up c :: map low post.
Proof.
  intros pre c post H Hc. unfold to_sentence_case. induction H as [|x pre Hx H IH]; simpl.
  - rewrite Hc, sentence_done. reflexivity.
  - rewrite Hx, IH. reflexivity.
Qed.
Lemma sentence_none : forall s, Forall (fun x => alnum x = false) s -> to_sentence_case ualnum s = map low s.
Proof.
  intros s H. unfold to_sentence_case. induction H as [|x s Hx H IH]; simpl; [reflexivity|]. rewrite Hx, IH. reflexivity.
Qed.
Lemma capital_letters : forall s b, ascii_alike s (capital_loop ualnum b s).
Proof.
  induction s as [|c s IH]; intros b; simpl; [constructor|].
  destruct (b && alnum c); [|destruct (is_whitespace c)]; constructor; auto using low_letter, up_letter; try apply IH. left. reflexivity.
Qed.
Lemma capital_idem : forall s b, capital_loop ualnum b (capital_loop ualnum b s) = capital_loop ualnum b s.
Proof.
  induction s as [|c s IH]; intros b; simpl; [reflexivity|]. destruct (b && alnum c) eqn:E; simpl.
  - rewrite <- (letter_alnum _ _ (up_letter c)), E, up_up, IH. reflexivity.
  - destruct (is_whitespace c) eqn:Ew; simpl.
    + rewrite E, Ew, IH. reflexivity.
    + rewrite <- (letter_alnum _ _ (low_letter c)), E, <- (letter_space _ _ (low_letter c)), Ew, low_low, IH. reflexivity.
Qed.
Lemma capital_space : forall a c b t, is_whitespace c = true ->
  capital_loop ualnum t (a ++ c :: b) = capital_loop ualnum t a ++ c :: to_capital_case ualnum b.
Proof.
  induction a as [|x a IH]; intros c b t Hc; simpl.
  - rewrite (space_alnum c Hc), andb_false_r, Hc. reflexivity.
  - rewrite !IH by exact Hc. destruct (t && alnum x); [reflexivity|]. destruct (is_whitespace x); reflexivity.
Qed.
Lemma capital_word : forall s, Forall (fun x => is_whitespace x = false) s -> to_capital_case ualnum s = to_sentence_case ualnum s.
Proof.
  intros s H. unfold to_capital_case, to_sentence_case. assert (G : forall b, capital_loop ualnum (negb b) s = sentence_loop ualnum b s).
  { induction H as [|x s Hx H IH]; intros b; simpl; [reflexivity|]. rewrite Hx. destruct (negb b && alnum x) eqn:E.
    - rewrite <- (IH true). reflexivity.
    - rewrite IH. reflexivity. }
  apply (G false).
Qed.
End Str.
