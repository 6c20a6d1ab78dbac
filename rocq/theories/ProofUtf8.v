(** * UTF-8: the strict decoder inverts the encoder *)
From Coq Require Import List NArith Bool Arith Lia String.
From Verif Require Import ModelBase ModelText SpecText ProofSplit.
From Verif Require Import ModelServer.
From Verif Require Import ModelJson.
Import ListNotations.
Local Open Scope N_scope.

Lemma bt : forall a b x, a <= x <= b -> between a b x = true. Proof. intros. apply between_spec. assumption. Qed.
Lemma bf : forall a b x, ~ (a <= x <= b) -> between a b x = false. Proof. intros a b x H; destruct (between a b x) eqn:K; [apply between_spec in K; contradiction|reflexivity]. Qed.
Lemma scalar_spec : forall c, is_scalar c = true <-> c < 55296 \/ 57344 <= c <= 1114111.
Proof. intros c. unfold is_scalar. rewrite orb_true_iff, N.ltb_lt, between_spec. reflexivity. Qed.
(** A scalar value of two, three or four bytes by its digits in base 64. *)
Lemma split64 : forall c, exists a b, c = a * 64 + b /\ b < 64 /\ c / 64 = a /\ c mod 64 = b.
Proof. intros c. exists (c / 64), (c mod 64). pose proof (N.div_mod c 64 ltac:(lia)). pose proof (N.mod_lt c 64 ltac:(lia)). repeat split; lia. Qed.
Lemma div64 : forall a b, b < 64 -> (a * 64 + b) / 64 = a. Proof. intros a b H. rewrite N.div_add_l by lia. rewrite (N.div_small b 64) by exact H. lia. Qed.
Lemma mod64 : forall a b, b < 64 -> (a * 64 + b) mod 64 = b. Proof. intros a b H. rewrite N.add_comm, N.mod_add by lia. apply N.mod_small. exact H. Qed.
Lemma div4096 : forall c, c / 4096 = c / 64 / 64. Proof. intros c. rewrite N.div_div by lia. reflexivity. Qed.
Lemma div262144 : forall c, c / 262144 = c / 64 / 64 / 64. Proof. intros c. rewrite !N.div_div by lia. reflexivity. Qed.

Lemma one_byte : forall c, c < 128 -> utf8_char c = [c].
Proof. intros c H. unfold utf8_char. apply N.ltb_lt in H. rewrite H. reflexivity. Qed.
Lemma two_bytes : forall a b, b < 64 -> 2 <= a < 32 -> utf8_char (a * 64 + b) = [192 + a; 128 + b].
Proof.
  intros a b B A. unfold utf8_char. replace (a * 64 + b <? 128) with false by (symmetry; apply N.ltb_ge; lia). replace (a * 64 + b <? 2048) with true by (symmetry; apply N.ltb_lt; lia).
  rewrite div64, mod64 by exact B. reflexivity.
Qed.
Lemma three_bytes : forall a b c, b < 64 -> c < 64 -> 32 <= a * 64 + b -> a < 16 -> utf8_char (a * 4096 + b * 64 + c) = [224 + a; 128 + b; 128 + c].
Proof.
  intros a b c B C L A. unfold utf8_char. rewrite div4096. replace (a * 4096 + b * 64 + c) with ((a * 64 + b) * 64 + c) by lia.
  replace (_ <? 128) with false by (symmetry; apply N.ltb_ge; lia). replace (_ <? 2048) with false by (symmetry; apply N.ltb_ge; lia). replace (_ <? 65536) with true by (symmetry; apply N.ltb_lt; lia).
  rewrite (div64 (a * 64 + b) c C), (div64 a b B), (mod64 a b B), (mod64 (a * 64 + b) c C). reflexivity.
Qed.
Lemma four_bytes : forall a b c d, b < 64 -> c < 64 -> d < 64 -> 16 <= a * 64 + b -> a < 8 -> utf8_char (a * 262144 + b * 4096 + c * 64 + d) = [240 + a; 128 + b; 128 + c; 128 + d].
Proof.
  intros a b c d B C D L A. unfold utf8_char. rewrite div262144, div4096. replace (a * 262144 + b * 4096 + c * 64 + d) with (((a * 64 + b) * 64 + c) * 64 + d) by lia.
  replace (_ <? 128) with false by (symmetry; apply N.ltb_ge; lia). replace (_ <? 2048) with false by (symmetry; apply N.ltb_ge; lia). replace (_ <? 65536) with false by (symmetry; apply N.ltb_ge; lia).
  rewrite (div64 ((a * 64 + b) * 64 + c) d D), (mod64 ((a * 64 + b) * 64 + c) d D), (div64 (a * 64 + b) c C), (mod64 (a * 64 + b) c C), (div64 a b B), (mod64 a b B). reflexivity.
Qed.
Lemma cont : forall b, b < 64 -> is_cont (128 + b) = true. Proof. intros b H. apply bt. lia. Qed.
Lemma decode_char : forall c r, is_scalar c = true -> from_utf8 (utf8_char c ++ r) = option_map (cons c) (from_utf8 r).
Proof.
  intros c r S. apply scalar_spec in S. destruct (N.lt_ge_cases c 128) as [L1|L1]; [rewrite one_byte by exact L1; cbn [app from_utf8]; apply N.ltb_lt in L1; rewrite L1; reflexivity|].
  destruct (split64 c) as (a & b & E & B & _). destruct (N.lt_ge_cases c 2048) as [L2|L2].
  { subst c. rewrite two_bytes by lia. cbn [app from_utf8]. replace (192 + a <? 128) with false by (symmetry; apply N.ltb_ge; lia). rewrite (cont b B). cbn [negb]. rewrite (bt 194 223) by lia.
    replace ((192 + a - 192) * 64 + (128 + b - 128)) with (a * 64 + b) by lia. reflexivity. }
  destruct (split64 a) as (a2 & b2 & E2 & B2 & _). destruct (N.lt_ge_cases c 65536) as [L3|L3].
  { assert (Ec : c = a2 * 4096 + b2 * 64 + b) by lia. rewrite Ec. rewrite three_bytes by lia. cbn [app from_utf8]. replace (224 + a2 <? 128) with false by (symmetry; apply N.ltb_ge; lia). rewrite (cont b B), (cont b2 B2). cbn [negb].
    rewrite (bf 194 223), (bt 224 239) by lia. cbv zeta. replace ((224 + a2 - 224) * 4096 + (128 + b2 - 128) * 64 + (128 + b - 128)) with (a2 * 4096 + b2 * 64 + b) by lia.
    replace (_ <? 2048) with false by (symmetry; apply N.ltb_ge; lia). rewrite bf by lia. reflexivity. }
  destruct (split64 a2) as (a3 & b3 & E3 & B3 & _). assert (Ec : c = a3 * 262144 + b3 * 4096 + b2 * 64 + b) by lia. rewrite Ec. rewrite four_bytes by lia. cbn [app from_utf8].
  replace (240 + a3 <? 128) with false by (symmetry; apply N.ltb_ge; lia). rewrite (cont b B), (cont b2 B2), (cont b3 B3). cbn [negb].
  rewrite (bf 194 223), (bf 224 239), (bt 240 244) by lia. cbv zeta. replace ((240 + a3 - 240) * 262144 + (128 + b3 - 128) * 4096 + (128 + b2 - 128) * 64 + (128 + b - 128)) with (a3 * 262144 + b3 * 4096 + b2 * 64 + b) by lia.
  replace (_ <? 65536) with false by (symmetry; apply N.ltb_ge; lia). replace (1114111 <? _) with false by (symmetry; apply N.ltb_ge; lia). reflexivity.
Qed.
Lemma utf8_cons : forall c s, utf8 (c :: s) = utf8_char c ++ utf8 s. Proof. reflexivity. Qed.
Lemma decode_encode : forall s, unicode_string s -> from_utf8 (utf8 s) = Some s.
Proof. intros s H. induction H as [|c s C _ IH]; [reflexivity|]. rewrite utf8_cons, decode_char by exact C. rewrite IH. reflexivity. Qed.
Lemma map_some : forall (c : char) o s, option_map (cons c) o = Some s -> exists t, s = c :: t /\ o = Some t.
Proof. intros c [t|] s H; [|discriminate]. injection H as <-. eauto. Qed.
Lemma encode_decode : forall n b s, (List.length b <= n)%nat -> from_utf8 b = Some s -> unicode_string s /\ b = utf8 s.
Proof.
  induction n as [|n IH]; intros b s Hn H; (destruct b as [|x b]; [injection H as <-; split; [constructor|reflexivity]|]); cbn [List.length] in Hn; [lia|]. cbn [from_utf8] in H.
  assert (G : forall c r p, (List.length r <= n)%nat -> x :: b = utf8_char c ++ r -> is_scalar c = true -> option_map (cons c) (from_utf8 r) = Some p -> unicode_string p /\ x :: b = utf8 p).
  { intros c r p Hr E C X. apply map_some in X. destruct X as (t & -> & X). destruct (IH r t Hr X) as [U ->]. split; [constructor; assumption|]. rewrite utf8_cons. exact E. }
  destruct (N.ltb_spec x 128) as [L|L].
  { apply (G x b s); [lia|rewrite one_byte by exact L; reflexivity|apply scalar_spec; lia|exact H]. }
  destruct b as [|y b]; [discriminate|]. cbn [List.length] in *. destruct (is_cont y) eqn:Y; [|discriminate]. apply between_spec in Y. cbn [negb] in H. assert (Ey : exists q, y = 128 + q /\ q < 64) by (exists (y - 128); lia). destruct Ey as (q & -> & Q).
  destruct (between 194 223 x) eqn:B.
  { apply between_spec in B. assert (Ex : exists a, x = 192 + a /\ 2 <= a < 32) by (exists (x - 192); lia). destruct Ex as (a & -> & A).
    replace ((192 + a - 192) * 64 + (128 + q - 128)) with (a * 64 + q) in H by lia. apply (G (a * 64 + q) b s); [lia|rewrite two_bytes by lia; reflexivity|apply scalar_spec; lia|exact H]. }
  destruct b as [|z b]; [discriminate|]. cbn [List.length] in *. destruct (is_cont z) eqn:Z; [|discriminate]. apply between_spec in Z. cbn [negb] in H. assert (Ez : exists p, z = 128 + p /\ p < 64) by (exists (z - 128); lia). destruct Ez as (p & -> & P).
  destruct (between 224 239 x) eqn:B3.
  { apply between_spec in B3. assert (Ex : exists a, x = 224 + a /\ a < 16) by (exists (x - 224); lia). destruct Ex as (a & -> & A). cbv zeta in H.
    replace ((224 + a - 224) * 4096 + (128 + q - 128) * 64 + (128 + p - 128)) with (a * 4096 + q * 64 + p) in H by lia. destruct (_ || _) eqn:K; [discriminate|]. apply orb_false_iff in K. destruct K as [K1 K2]. apply N.ltb_ge in K1.
    apply (G (a * 4096 + q * 64 + p) b s); [lia|rewrite three_bytes by lia; reflexivity| |exact H]. apply scalar_spec. destruct (N.lt_ge_cases (a * 4096 + q * 64 + p) 55296) as [X|X]; [left; exact X|]. right. split; [|lia].
    destruct (N.lt_ge_cases (a * 4096 + q * 64 + p) 57344) as [X'|X']; [|exact X']. rewrite bt in K2 by lia. discriminate. }
  destruct b as [|t b]; [discriminate|]. cbn [List.length] in *. destruct (is_cont t) eqn:T; [|discriminate]. apply between_spec in T. cbn [negb] in H. assert (Et : exists r, t = 128 + r /\ r < 64) by (exists (t - 128); lia). destruct Et as (r & -> & R).
  destruct (between 240 244 x) eqn:B4; [|discriminate].
  apply between_spec in B4. assert (Ex : exists a, x = 240 + a /\ a < 8) by (exists (x - 240); lia). destruct Ex as (a & -> & A). cbv zeta in H.
  replace ((240 + a - 240) * 262144 + (128 + q - 128) * 4096 + (128 + p - 128) * 64 + (128 + r - 128)) with (a * 262144 + q * 4096 + p * 64 + r) in H by lia. destruct (_ || _) eqn:K; [discriminate|]. apply orb_false_iff in K. destruct K as [K1 K2]. apply N.ltb_ge in K1, K2.
  apply (G (a * 262144 + q * 4096 + p * 64 + r) b s); [lia|rewrite four_bytes by lia; reflexivity|apply scalar_spec; lia|exact H].
Qed.
Lemma utf8_spec : forall b s, from_utf8 b = Some s <-> unicode_string s /\ b = utf8 s.
Proof. intros b s. split; [apply (encode_decode (List.length b)); lia|]. intros [U ->]. apply decode_encode. exact U. Qed.
