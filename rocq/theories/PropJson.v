(** * The server's JSON and query strings (C98, C99, C100)

    Vocabulary: SpecJson (JSON texts by RFC 8259's grammar; which values are requests and which request they are; what is wrong with
    others, and where; query strings), SpecText (strings of characters). *)
From Coq Require Import List NArith ZArith Bool Arith Lia String Permutation.
From Verif Require Import ModelBase ModelContext ModelEvaluator ModelText ModelSplit ModelTokenizer ModelDefault ModelFloat ModelNum ModelStd SpecText SpecServer.
From Verif Require PropServer PropServer2.
From Verif Require Import ModelServer.
From Verif Require Import ModelJson SpecLex SpecJson ProofLex ProofJson ProofUtf8 ProofRequest ProofWrite.
Import ListNotations.
Local Open Scope string_scope.
Local Open Scope list_scope.
Local Open Scope N_scope.

(** ** C98: requests *)
Definition error_body (s : str) : body := Json (Evaluated None (Some (Text s))).
Lemma body_read : forall number otherwise w j t rest, white w -> value_text j t -> ends j rest -> unicode_string (w ++ t ++ rest) ->
  receive number otherwise (utf8 (w ++ t ++ rest)) = match read_request number j with inl q => Received q | inr p => NotARequest (show_path p) end.
Proof. intros number otherwise w j t rest W T E U. unfold receive. rewrite (decode_encode _ U), (json_complete j w t rest W T E). reflexivity. Qed.
Lemma request_sound : forall number j q, read_request number j = inl q -> request_of number j q.
Proof.
  intros number j [e t v] H. destruct j as [|b|x|s|l|l]; cbn [read_request] in H; try discriminate.
  - apply sequence_spec in H. destruct H as (j & k & -> & T & V). constructor; [apply (type_spec number); exact T|apply variables_sound; exact V].
  - apply fields_spec in H. destruct H as (A & B & C). cbn [f_expression f_type f_variables] in *. unfold needed, allowed in *. destruct A as (j & A & R). destruct j; try discriminate. injection R as ->. constructor.
    + apply (look_only number). exact A.
    + destruct B as [[B ->]|(j & B & R)]; [left; split; [apply (look_absent number); exact B|reflexivity]|right; exists j; split; [apply (look_only number); exact B|apply (type_spec number); exact R]].
    + destruct C as [[C ->]|(j & C & R)]; [left; split; [apply (look_absent number); exact C|reflexivity]|right; exists j; split; [apply (look_only number); exact C|apply variables_sound; exact R]].
Qed.
Lemma request_complete : forall number j q, request_of number j q -> exists q', read_request number j = inl q' /\ same_request q q'.
Proof.
  intros number j q H. destruct H as [l e t v A B C|e j t k v T V].
  - assert (X : exists v', same_variables v v' /\ allowed "variables" (read_variables number) None l v').
    { destruct C as [[C ->]|(j & C & V)].
      - exists None. split; [exact I|]. left. split; [apply (look_absent number); exact C|reflexivity].
      - destruct (variables_complete number j v V) as (v' & R & S). exists v'. split; [exact S|]. right. exists j. split; [apply (look_only number); exact C|exact R]. }
    destruct X as (v' & S & C'). exists (Request e t v'). split; [|split; [reflexivity|]; split; [reflexivity|exact S]]. cbn [read_request]. apply fields_spec. cbn [f_expression f_type f_variables]. split; [|split; [|exact C']].
    + exists (JString e). split; [apply (look_only number); exact A|reflexivity].
    + destruct B as [[B ->]|(j & B & T)]; [left; split; [apply (look_absent number); exact B|reflexivity]|right; exists j; split; [apply (look_only number); exact B|apply (type_spec number); exact T]].
  - destruct (variables_complete number k v V) as (v' & R & S). exists (Request e t v'). split; [|split; [reflexivity|]; split; [reflexivity|exact S]]. cbn [read_request]. apply sequence_spec. exists j, k. split; [reflexivity|]. split; [apply (type_spec number); exact T|exact R].
Qed.

Lemma index_shown : forall i, segment_text (Index i) (show_index i).
Proof.
  intros i. unfold show_index, show_int. destruct (Z.ltb_spec (Z.of_nat i) 0) as [L|L]; [lia|]. destruct (PropServer2.shown_digits (Z.of_nat i) L) as (d & -> & H & N). constructor; assumption.
Qed.
Lemma segments_shown : forall q p s, path_text p s -> path_text (p ++ q) (s ++ show_segments false q).
Proof.
  induction q as [|g q IH]; intros p s H; [cbn [show_segments]; rewrite !app_nil_r; exact H|]. assert (X : exists t, segment_text g t /\ show_segments false (g :: q) = t ++ show_segments false q).
  { destruct g as [k|i]; [exists (46 :: k); split; [constructor|reflexivity]|exists (show_index i); split; [apply index_shown|reflexivity]]. }
  destruct X as (t & G & ->). specialize (IH (p ++ [g]) (s ++ t) (p_more p s g t H G)). rewrite <- !app_assoc in IH. exact IH.
Qed.
Lemma path_shown : forall p, p <> [] -> path_text p (show_path p).
Proof.
  intros [|[k|i] q] N; [congruence|..]; cbn [show_path].
  - exact (segments_shown q [Key k] k (p_first_key k)).
  - exact (segments_shown q [Index i] (show_index i) (p_first_index i _ (index_shown i))).
Qed.

Section Server.
Context {D W : Type}.
Variable sv : service D W.
Variable E : env.
Variable dbg : bool.
Variable number : str -> option f64.
Variable otherwise : str -> received.
(** The answer to a body: a status, a body and the state of the generator of random numbers. *)
Definition answer (body : list N) (only : option bool) (w : W) : res (N * ModelServer.body) * W := endpoint sv E dbg (receive number otherwise body) only w.

(** A body whose text begins with a request is evaluated as that request (the order of whose variables is that of a hash map), whatever
    follows it. *)
Theorem C98_requests : forall a j t rest q only w, white a -> value_text j t -> ends j rest -> unicode_string (a ++ t ++ rest) -> request_of number j q ->
  exists q', same_request q q' /\ answer (utf8 (a ++ t ++ rest)) only w = endpoint sv E dbg (Received q') only w.
Proof.
  intros a j t rest q only w A T R U Q. destruct (request_complete number j q Q) as (q' & Q' & S). exists q'. split; [exact S|]. unfold answer. rewrite (body_read number otherwise a j t rest A T R U), Q'. reflexivity.
Qed.

(** A body that begins with another JSON value is not evaluated: the status is 400, and the message is that it is no JSON or the path of
    a value. *)
Theorem C98_rejected : forall a j t rest only w, white a -> value_text j t -> ends j rest -> unicode_string (a ++ t ++ rest) -> (forall q, ~ request_of number j q) ->
  answer (utf8 (a ++ t ++ rest)) only w = (Ok (400, error_body (lit "Invalid json")), w) \/
  exists p m, p <> [] /\ told_at p m /\ answer (utf8 (a ++ t ++ rest)) only w = (Ok (400, error_body m), w).
Proof.
  intros a j t rest only w A T R U N. unfold answer. rewrite (body_read number otherwise a j t rest A T R U). destruct (read_request number j) as [q|p] eqn:Q; [exfalso; exact (N q (request_sound number j q Q))|].
  cbn [endpoint]. destruct (str_eqb (show_path p) (lit ".")) eqn:K; [left; reflexivity|right]. assert (Np : p <> []) by (intros ->; discriminate K). exists p. eexists. split; [exact Np|]. split; [apply told_path; apply path_shown; exact Np|reflexivity].
Qed.

(** A text that begins with no JSON value is left to what is said of malformed texts. *)
Theorem C98_no_value : forall s only w, unicode_string s -> (forall a j t rest, white a -> value_text j t -> s <> a ++ t ++ rest) -> answer (utf8 s) only w = endpoint sv E dbg (otherwise s) only w.
Proof.
  intros s only w U N. unfold answer, receive. rewrite (proj2 (utf8_spec (utf8 s) s) (conj U eq_refl)). destruct (read_json s) as [[j rest]|] eqn:R; [|reflexivity].
  destruct (json_sound s j rest R) as (a & t & A & Hs & T). exfalso. exact (N a j t rest A T Hs).
Qed.

(** Bytes that encode no text are not evaluated either. *)
Theorem C98_bytes : forall b only w, (forall s, unicode_string s -> b <> utf8 s) -> answer b only w = (Ok (400, error_body (lit "Invalid JSON")), w).
Proof.
  intros b only w N. unfold answer, receive. destruct (from_utf8 b) as [s|] eqn:X; [|reflexivity]. apply utf8_spec in X. destruct X as [U ->]. exfalso. exact (N s U eq_refl).
Qed.

(** The first field with a value it cannot have is what the message names: the members before it are in order. *)
Definition rejected_at (j : json) (p : path) : Prop := forall a t rest only w, white a -> value_text j t -> unicode_string (a ++ t ++ rest) ->
  exists m, told_at p m /\ answer (utf8 (a ++ t ++ rest)) only w = (Ok (400, error_body m), w).
Lemma rejected_intro : forall j p, compound j -> read_request number j = inr p -> (p = [] \/ show_path p <> lit ".") -> rejected_at j p.
Proof.
  intros j p C R S a t rest only w A T U. assert (X : ends j rest) by (destruct C as [[l ->]|[l ->]]; exact I). unfold answer. rewrite (body_read number otherwise a j t rest A T X U), R. cbn [endpoint].
  destruct S as [->|S]; [eexists; split; [apply told_json|reflexivity]|]. destruct (str_eqb (show_path p) (lit ".")) eqn:K; [apply str_eqb_eq in K; contradiction|].
  assert (N : p <> []) by (intros ->; apply S; reflexivity). eexists. split; [apply told_path; apply path_shown; exact N|reflexivity].
Qed.
Lemma path_field : forall k p, field k -> show_path (Key k :: p) <> lit ".".
Proof. intros k p [->|[-> | ->]]; discriminate. Qed.
Lemma path_index : forall i p, show_path (Index i :: p) <> lit ".".
Proof. intros i p. discriminate. Qed.
Lemma wrong_expression : forall j, (~ exists e, j = JString e) -> read_expression j = inr [].
Proof. intros j N. destruct j; try reflexivity. exfalso. eauto. Qed.
Lemma wrong_type : forall j, (~ exists t, type_of j t) -> exists p, read_type j = inr p /\ wrong_at number (lit "type") j p.
Proof.
  intros j N. destruct (type_wrong number j N) as (p & R & [(k & v & l & t & -> & Y & V & ->)|[H ->]]); eexists; (split; [exact R|]).
  - eapply w_variant; eassumption.
  - apply w_type; [|exact H]. intros t Y. apply N. eauto.
Qed.
Lemma wrong_variables : forall j, (~ exists v, variables_of number j v) -> exists p, read_variables number j = inr p /\ wrong_at number (lit "variables") j p.
Proof.
  intros j N. destruct j as [|b|x|s|l|l]; try (exists []; split; [reflexivity|]; apply w_variables; discriminate).
  - exfalso. apply N. exists None. constructor.
  - assert (Dec : (forall k j, In (k, j) l -> exists v, variable_of number j v) \/ exists a k j b, l = a ++ (k, j) :: b /\ (forall k j, In (k, j) a -> exists v, variable_of number j v) /\ ~ exists v, variable_of number j v).
    { clear N. induction l as [|[k j] l IH]; [left; intros k j []|]. destruct (read_variable number j) as [v|p] eqn:R.
      - assert (V : variable_of number j v) by (apply variable_spec; exact R). destruct IH as [IH|(a & k' & j' & b & -> & G & X)].
        + left. intros k' j' [I|I]; [injection I as <- <-; eauto|exact (IH k' j' I)].
        + right. exists ((k, j) :: a), k', j', b. split; [reflexivity|]. split; [|exact X]. intros k1 j1 [I|I]; [injection I as <- <-; eauto|exact (G k1 j1 I)].
      - right. exists [], k, j, l. split; [reflexivity|]. split; [intros k' j' []|]. intros (v & V). apply variable_spec in V. congruence. }
    destruct Dec as [G|(a & k & j & b & -> & G & X)].
    + exfalso. apply N. destruct (map_spec number l [] (NoDup_nil _) G) as (m & R & _). exists (Some m). apply variables_sound. unfold read_variables. rewrite R. reflexivity.
    + destruct (map_wrong number a [] k j b G X) as (p & R & P). exists (Key k :: p). split; [unfold read_variables; rewrite R; reflexivity|]. apply w_variable; [exact G|intros v V; apply X; eauto|exact P].
Qed.

Theorem C98_wrong_field : forall a k j b, fine number a -> field k -> ~ In k (map fst a) -> ~ good_field number k j ->
  exists p, wrong_at number k j p /\ rejected_at (JObject (a ++ (k, j) :: b)) (Key k :: p).
Proof.
  intros a k j b F Fk N G. destruct (fine_start number a F) as (f & R & S).
  assert (H : exists p, wrong_at number k j p /\ read_fields number ((k, j) :: b) f = inr (Key k :: p)).
  { destruct Fk as [->|[-> | ->]].
    - assert (X : ~ exists e, j = JString e) by (intros X; apply G; split; [intros _; exact X|split; discriminate]). exists []. split; [apply w_expression; intros s Y; apply X; eauto|].
      cbn [read_fields]. rewrite str_eqb_refl. destruct (f_expression f) eqn:Fe; [exfalso; apply N; apply S; left; split; [reflexivity|congruence]|]. rewrite (wrong_expression j X). reflexivity.
    - assert (X : ~ exists t, type_of j t) by (intros X; apply G; split; [discriminate|split; [intros _; exact X|discriminate]]). destruct (wrong_type j X) as (p & Rp & Wp). exists p. split; [exact Wp|].
      cbn [read_fields]. change (str_eqb (lit "type") (lit "expression")) with false. cbv iota. rewrite str_eqb_refl. destruct (f_type f) eqn:Fe; [exfalso; apply N; apply S; right; left; split; [reflexivity|congruence]|]. rewrite Rp. reflexivity.
    - assert (X : ~ exists t, variables_of number j t) by (intros X; apply G; split; [discriminate|split; [discriminate|intros _; exact X]]). destruct (wrong_variables j X) as (p & Rp & Wp). exists p. split; [exact Wp|].
      cbn [read_fields]. change (str_eqb (lit "variables") (lit "expression")) with false. change (str_eqb (lit "variables") (lit "type")) with false. cbv iota. rewrite str_eqb_refl. destruct (f_variables f) eqn:Fe; [exfalso; apply N; apply S; right; right; split; [reflexivity|congruence]|]. rewrite Rp. reflexivity. }
  destruct H as (p & Wp & Rp). exists p. split; [exact Wp|]. apply rejected_intro; [right; eauto|rewrite R; exact Rp|right; apply path_field; exact Fk].
Qed.

(** A field given twice, or the expression missing, is no JSON to the server; nor is what is neither an object nor an array. *)
Theorem C98_given_twice : forall a k j b, fine number a -> field k -> In k (map fst a) -> rejected_at (JObject (a ++ (k, j) :: b)) [].
Proof.
  intros a k j b F Fk I. destruct (fine_start number a F) as (f & R & S). apply rejected_intro; [right; eauto| |auto]. rewrite R.
  assert (K : seen f k) by (apply S; auto). cbn [read_fields]. destruct K as [[-> K]|[[-> K]|[-> K]]].
  - rewrite str_eqb_refl. destruct (f_expression f); [reflexivity|congruence].
  - change (str_eqb (lit "type") (lit "expression")) with false. cbv iota. rewrite str_eqb_refl. destruct (f_type f); [reflexivity|congruence].
  - change (str_eqb (lit "variables") (lit "expression")) with false. change (str_eqb (lit "variables") (lit "type")) with false. cbv iota. rewrite str_eqb_refl. destruct (f_variables f); [reflexivity|congruence].
Qed.
Theorem C98_no_expression : forall l, fine number l -> absent l "expression" -> rejected_at (JObject l) [].
Proof.
  intros l F N. destruct (fine_start number l F) as (f & R & S). apply rejected_intro; [right; eauto| |auto]. specialize (R []). rewrite app_nil_r in R. rewrite R. cbn [read_fields].
  destruct (f_expression f) eqn:K; [|reflexivity]. exfalso. apply N. apply (S (lit "expression")). left. split; [reflexivity|congruence].
Qed.
Theorem C98_no_object : forall j a t rest only w, ~ compound j -> white a -> value_text j t -> ends j rest -> unicode_string (a ++ t ++ rest) ->
  answer (utf8 (a ++ t ++ rest)) only w = (Ok (400, error_body (lit "Invalid json")), w).
Proof.
  intros j a t rest only w N A T X U. unfold answer. rewrite (body_read number otherwise a j t rest A T X U). destruct j as [|b|x|s|l|l]; try reflexivity; exfalso; apply N; [left|right]; eauto.
Qed.
(** In an array the first wrong one of the three elements is named by its index; an array of another length is no JSON. *)
Theorem C98_arrays :
  (forall j l, (forall s, j <> JString s) -> rejected_at (JArray (j :: l)) [Index 0]) /\
  (forall e j l, (forall t, ~ type_of j t) -> exists p, wrong_at number (lit "type") j p /\ rejected_at (JArray (JString e :: j :: l)) (Index 1 :: p)) /\
  (forall e y t j l, type_of y t -> (forall v, ~ variables_of number j v) -> exists p, wrong_at number (lit "variables") j p /\ rejected_at (JArray (JString e :: y :: j :: l)) (Index 2 :: p)) /\
  rejected_at (JArray []) [] /\ (forall e, rejected_at (JArray [JString e]) []) /\ (forall e y t, type_of y t -> rejected_at (JArray [JString e; y]) []) /\
  (forall e y t z v x l, type_of y t -> variables_of number z v -> rejected_at (JArray (JString e :: y :: z :: x :: l)) []).
Proof.
  assert (C : forall l, compound (JArray l)) by (intros l; left; eauto).
  split. { intros j l N. apply rejected_intro; [apply C| |right; apply path_index]. cbn [read_request read_sequence]. rewrite (wrong_expression j); [reflexivity|]. intros (s & S). exact (N s S). }
  split. { intros e j l N. destruct (wrong_type j) as (p & R & Wp); [intros (t & T); exact (N t T)|]. exists p. split; [exact Wp|]. apply rejected_intro; [apply C| |right; apply path_index]. cbn [read_request read_sequence read_expression at_]. rewrite R. reflexivity. }
  split. { intros e y t j l Y N. destruct (wrong_variables j) as (p & R & Wp); [intros (v & V); exact (N v V)|]. exists p. split; [exact Wp|]. apply rejected_intro; [apply C| |right; apply path_index].
    cbn [read_request read_sequence read_expression at_]. rewrite (proj2 (type_spec number y t) Y). cbn [at_]. rewrite R. reflexivity. }
  split. { apply rejected_intro; [apply C|reflexivity|auto]. }
  split. { intros e. apply rejected_intro; [apply C|reflexivity|auto]. }
  split. { intros e y t Y. apply rejected_intro; [apply C| |auto]. cbn [read_request read_sequence read_expression at_]. rewrite (proj2 (type_spec number y t) Y). reflexivity. }
  intros e y t z v x l Y V. apply rejected_intro; [apply C| |auto]. destruct (variables_complete number z v V) as (v' & R & _). cbn [read_request read_sequence read_expression at_]. rewrite (proj2 (type_spec number y t) Y). cbn [at_]. rewrite R. reflexivity.
Qed.

(** Members that are no fields do not matter, nor does the order of the fields of a request. *)
Lemma only_perm : forall l l' n j, Permutation l l' -> only l n j -> only l' n j.
Proof.
  intros l l' n j P (a & b & -> & A & B). assert (I : In (lit n, j) l') by (eapply Permutation_in; [exact P|]; apply in_or_app; right; left; reflexivity).
  apply in_split in I. destruct I as (a' & b' & ->). exists a', b'. split; [reflexivity|].
  assert (Q : Permutation (a ++ b) (a' ++ b')) by (eapply Permutation_app_inv; exact P). assert (N : ~ In (lit n) (map fst (a' ++ b'))).
  { intros X. assert (Y : In (lit n) (map fst (a ++ b))) by (eapply Permutation_in; [apply Permutation_map, Permutation_sym, Q|exact X]). rewrite map_app in Y. apply in_app_or in Y. tauto. }
  rewrite map_app in N. split; intros X; apply N; apply in_or_app; auto.
Qed.
Theorem C98_order : forall l l' q, Permutation l l' -> request_of number (JObject l) q -> request_of number (JObject l') q.
Proof.
  intros l l' q P H. inversion H as [l0 e t v A B C|]; subst.
  assert (Ab : forall n, absent l n -> absent l' n) by (intros n X Y; apply X; eapply Permutation_in; [apply Permutation_map, Permutation_sym, P|exact Y]).
  constructor; [exact (only_perm _ _ _ _ P A)|..].
  - destruct B as [[B ->]|(j & B & T)]; [left; auto|right; exists j; split; [exact (only_perm _ _ _ _ P B)|exact T]].
  - destruct C as [[C ->]|(j & C & T)]; [left; auto|right; exists j; split; [exact (only_perm _ _ _ _ P C)|exact T]].
Qed.
Lemma other_members : forall a k j b, ~ field k -> read_request number (JObject (a ++ (k, j) :: b)) = read_request number (JObject (a ++ b)).
Proof.
  intros a k j b N. cbn [read_request]. generalize (Fields None None None). induction a as [|[k0 j0] a IH]; intros f.
  - cbn [app]. cbn [read_fields]. destruct (str_eqb k (lit "expression")) eqn:K1; [apply str_eqb_eq in K1; exfalso; apply N; left; exact K1|].
    destruct (str_eqb k (lit "type")) eqn:K2; [apply str_eqb_eq in K2; exfalso; apply N; right; left; exact K2|]. destruct (str_eqb k (lit "variables")) eqn:K3; [apply str_eqb_eq in K3; exfalso; apply N; right; right; exact K3|]. reflexivity.
  - cbn [app read_fields]. destruct (str_eqb k0 (lit "expression")).
    + destruct (f_expression f); [reflexivity|]. destruct (at_ _ _); [apply IH|reflexivity].
    + destruct (str_eqb k0 (lit "type")); [destruct (f_type f); [reflexivity|]; destruct (at_ _ _); [apply IH|reflexivity]|].
      destruct (str_eqb k0 (lit "variables")); [destruct (f_variables f); [reflexivity|]; destruct (at_ _ _); [apply IH|reflexivity]|apply IH].
Qed.
Theorem C98_other_members : forall a k j b s s' only w, ~ field k -> bytes_of (JObject (a ++ (k, j) :: b)) s -> bytes_of (JObject (a ++ b)) s' -> answer s only w = answer s' only w.
Proof.
  intros a k j b s s' only w N (t & U & -> & T) (t' & U' & -> & T').
  assert (X : forall j t, value_text j t -> unicode_string t -> receive number otherwise (utf8 t) = match read_request number j with inl q => Received q | inr p => NotARequest (show_path p) end).
  { clear. intros j t T U. pose proof (body_read number otherwise [] j t [] (Forall_nil _) T (ends_nil j)) as X. cbn [app] in X. rewrite app_nil_r in X. exact (X U). }
  unfold answer. rewrite (X _ t T U), (X _ t' T' U'), (other_members a k j b N). reflexivity.
Qed.
End Server.
Print Assumptions C98_requests.
Print Assumptions C98_rejected.
Print Assumptions C98_no_value.
Print Assumptions C98_bytes.
Print Assumptions C98_wrong_field.
Print Assumptions C98_given_twice.
Print Assumptions C98_no_expression.
Print Assumptions C98_no_object.
Print Assumptions C98_arrays.
Print Assumptions C98_order.
Print Assumptions C98_other_members.
(** Such are a lone half of a surrogate pair and a string over two lines. *)
Example C98_no_value_case : forall s, In s [lit "[""\udc00""]"; lit """a" ++ [10%N] ++ lit """"; lit "{""expression"":}"] ->
  unicode_string s /\ forall a j t rest, white a -> value_text j t -> s <> a ++ t ++ rest.
Proof.
  intros s I. assert (X : forallb is_scalar s = true /\ read_json s = None /\ match s with c :: _ => json_white c = false /\ c <> 45%N /\ ~ (48 <= c <= 57)%N | [] => False end)
    by (repeat (destruct I as [<-|I]; [split; [vm_compute; reflexivity|]; split; [vm_compute; reflexivity|]; split; [reflexivity|]; split; [discriminate|]; cbn; lia|]); destruct I).
  destruct X as (U & R & F). split; [apply Forall_forall; intros c K; rewrite forallb_forall in U; exact (U c K)|]. intros a j t rest A T Hs.
  assert (K : read_json s = Some (j, rest)).
  { rewrite Hs. apply json_complete; [exact A|exact T|]. destruct j as [|b|n|u|l|l]; try exact Logic.I. exfalso. assert (Hn : number_text t) by (inversion T; assumption). clear T.
    destruct (number_first _ Hn) as (c & r & -> & Hc). clear I U R. subst s. destruct a as [|x a]; cbn [app] in F.
    - destruct F as (_ & F1 & F2). destruct Hc; contradiction.
    - inversion A as [|? ? Wx]; subst. apply white_spec in Wx. destruct F as (F & _). congruence. }
  rewrite R in K. discriminate.
Qed.

(** The hypotheses are met: a request with blanks, escapes, an unknown member and something after it; a wrong variable inside an array; an
    unknown type; a field given twice; a number out of range; the texts with one wrong field are objects whose members before it are fine. *)
Definition some_number (t : str) : option f64 := if str_eqb t (lit "1e999") then None else Some f_zero.
Definition ask (body : string) : res (N * ModelServer.body) := fst (answer PropServer.example_service std_env true some_number (fun _ => NotUtf8) (utf8 (lit body)) None tt).
Definition told (s : string) : res (N * ModelServer.body) := Ok (400, error_body (lit s)).
Example C98_case :
  ask " { ""x"": [1, {}], ""type"" :""integer"", ""expression"":""6*\u0037"" } and so on" = Ok (200, Json (Evaluated (Some (lit "42")) None)) /\
  ask "[""a+1"", {""integer"": null}, {""a"": ""1"", ""a"": ""41""}]" = Ok (200, Json (Evaluated (Some (lit "42")) None)) /\
  ask "{""expression"": ""1"", ""variables"": {""a"": 1, ""b"": [true]}, ""expression"": 2}" = told "Invalid value type at path: variables.b" /\
  ask "{""expression"": ""1"", ""variables"": {""a"": 1, ""b"": [1, 1e999]}}" = told "Invalid value type at path: variables.b[1]" /\
  ask "{""type"": ""Integer"", ""expression"": ""1""}" = told "Invalid value type at path: type" /\
  ask "{""type"": {""integer"": 1}, ""expression"": ""1""}" = told "Invalid value type at path: type.integer" /\
  ask "{""expression"": ""1"", ""expression"": 1}" = told "Invalid json" /\ ask "{}" = told "Invalid json" /\ ask "1 + 1" = told "Invalid json" /\
  ask "[""1"", ""real""]" = told "Invalid value type at path: [1]" /\ ask "[""1"", null]" = told "Invalid json".
Proof. repeat split; vm_compute; reflexivity. Qed.
Example C98_hypotheses : fine some_number [(lit "expression", JString (lit "1")); (lit "x", JNull)] /\ ~ good_field some_number (lit "type") (JBool true) /\
  request_of some_number (JObject [(lit "type", JString (lit "integer")); (lit "expression", JString (lit "6*7"))]) (Request (lit "6*7") (Some NInteger) None) /\
  ~ (exists s, unicode_string s /\ [195; 40] = utf8 s) /\ value_text (JObject [(lit "a", JNumber (lit "-1.5e3"))]) (lit "{""a"" : -1.5e3 }").
Proof.
  split; [|split; [|split; [|split]]].
  - split.
    + intros k j [I|[I|[]]]; injection I as <- <-; (split; [|split]); intros X; try discriminate X; eauto.
    + intros k [->|[-> | ->]]; vm_compute; repeat constructor.
  - intros (_ & X & _). destruct (X eq_refl) as (t & T). inversion T.
  - apply request_sound. vm_compute. reflexivity.
  - intros X. assert (Y : from_utf8 [195; 40] = None) by reflexivity. destruct X as (s & X). apply utf8_spec in X. congruence.
  - destruct (json_sound (lit "{""a"" : -1.5e3 }") (JObject [(lit "a", JNumber (lit "-1.5e3"))]) []) as (w & t & Hw & S & T); [vm_compute; reflexivity|]. rewrite app_nil_r in S.
    destruct (value_first _ _ T) as (c & r & -> & C & _). destruct Hw as [|x w X Hw]; [rewrite S; exact T|]. cbn in S. injection S as S1 _. subst x. cbn in X. exfalso. intuition discriminate.
Qed.

(** ** C99: responses *)

(** What is written is JSON, and it is the JSON of one value only. *)
Theorem C99_written : forall j, writable j -> bytes_of j (utf8 (write_json j)).
Proof. intros j H. exists (write_json j). split; [apply written_unicode; exact H|]. split; [reflexivity|]. apply written. apply H. Qed.
Print Assumptions C99_written.
Theorem C99_unambiguous : forall j j' b, bytes_of j b -> bytes_of j' b -> j = j'.
Proof. intros j j' b (s & U & -> & T) (s' & U' & X & T'). apply (utf8_inj s s' U U') in X. subst s'. exact (unambiguous j j' s T T'). Qed.
Print Assumptions C99_unambiguous.

(** The body of a response: the result, bare; or an object of a result and an error, exactly one of which is null. *)
Lemma writable_pair : forall a b, (forall s, a = JString s -> unicode_string s) -> (forall s, b = JString s -> unicode_string s) ->
  (a = JNull \/ exists s, a = JString s) -> (b = JNull \/ exists s, b = JString s) -> writable (JObject [(lit "result", a); (lit "error", b)]).
Proof.
  intros a b Ua Ub Ha Hb.
  assert (X : forall p x, leads p (JObject [(lit "result", a); (lit "error", b)]) x -> (p = [] /\ x = JObject [(lit "result", a); (lit "error", b)]) \/ x = a \/ x = b).
  { intros p x L. inversion L as [|k y l q z I L'|]; subst; [auto|]. right. assert (Y : y = a \/ y = b) by (destruct I as [I|[I|[]]]; injection I as _ <-; auto).
    assert (Z : y = JNull \/ exists s, y = JString s) by (destruct Y as [-> | ->]; assumption). destruct Z as [->|(s & ->)]; inversion L'; subst; exact Y. }
  assert (Na : forall t, a <> JNumber t) by (intros t Y; destruct Ha as [H|(s & H)]; congruence). assert (Nb : forall t, b <> JNumber t) by (intros t Y; destruct Hb as [H|(s & H)]; congruence).
  split; [|split].
  - intros p t L. destruct (X p _ L) as [[_ Y]|[Y|Y]]; [discriminate|exfalso; exact (Na t (eq_sym Y))|exfalso; exact (Nb t (eq_sym Y))].
  - intros p s L. destruct (X p _ L) as [[_ Y]|[Y|Y]]; [discriminate|exact (Ua s (eq_sym Y))|exact (Ub s (eq_sym Y))].
  - intros p l k x L I. destruct (X p _ L) as [[_ Y]|[Y|Y]].
    + injection Y as ->. destruct I as [I|[I|[]]]; injection I as <- _; apply ascii_unicode; repeat constructor.
    + destruct Ha as [H|(s & H)]; congruence.
    + destruct Hb as [H|(s & H)]; congruence.
Qed.
Theorem C99_response : forall D W (sv : service D W) E dbg say r only w status b w', endpoint sv E dbg r only w = (Ok (status, b), w') ->
  (forall q s w1 w2, eval_expression sv E dbg q w1 = (Ok (inl s), w2) -> unicode_string s) -> (forall m, unicode_string (say m)) ->
  (exists q s, r = Received q /\ eval_expression sv E dbg q w = (Ok (inl s), w') /\ status = 200 /\
     if match only with Some true => true | _ => false end then body_bytes say b = utf8 s else bytes_of (JObject [(lit "result", JString s); (lit "error", JNull)]) (body_bytes say b)) \/
  exists m, bytes_of (JObject [(lit "result", JNull); (lit "error", JString (say m))]) (body_bytes say b) /\
     ((exists q, r = Received q /\ eval_expression sv E dbg q w = (Ok (inr m), w') /\ status = 200) \/ ((forall q, r <> Received q) /\ w' = w /\ status = 400)).
Proof.
  intros D W sv E dbg say r only w status b w' H U Um.
  assert (Er : forall m, bytes_of (JObject [(lit "result", JNull); (lit "error", JString (say m))]) (body_bytes say (Json (Evaluated None (Some m))))).
  { intros m. apply C99_written. apply writable_pair; [discriminate|intros s X; injection X as <-; apply Um|auto|right; eauto]. }
  apply PropServer.C37_exactly_one in H. destruct H as [(-> & -> & N & m & ->)|(-> & q & -> & [(s & Q & ->)|(m & Q & ->)])].
  - right. exists m. split; [apply Er|]. right. auto.
  - left. exists q, s. split; [reflexivity|]. split; [exact Q|]. split; [reflexivity|]. destruct only as [[|]|]; [reflexivity|..]; apply C99_written; (apply writable_pair; [intros x X; injection X as <-; exact (U q s _ _ Q)|discriminate|right; eauto|auto]).
  - right. exists m. split; [apply Er|]. left. exists q. auto.
Qed.
Print Assumptions C99_response.

(** The lists of the other endpoints. *)
Theorem C99_lists :
  (forall l, Forall (fun i => unicode_string (i_name i) /\ Forall unicode_string (i_aliases i) /\ match i_description i with Some d => unicode_string d | None => True end) l ->
     bytes_of (JArray (map (fun i => JObject [(lit "name", JString (i_name i)); (lit "aliases", JArray (map JString (i_aliases i)));
                                              (lit "description", match i_description i with Some d => JString d | None => JNull end)]) l))
              (utf8 (write_json (JArray (map fn_json l))))) /\
  (forall l, Forall (fun i => unicode_string (fst i) /\ unicode_string (snd i)) l ->
     bytes_of (JArray (map (fun i => JObject [(lit "name", JString (fst i)); (lit "value", JString (snd i))]) l)) (utf8 (write_json (JArray (map var_json l))))).
Proof.
  assert (Arr : forall l, Forall writable l -> writable (JArray l)).
  { intros l F. rewrite Forall_forall in F. split; [|split]; intros p.
    - intros t L. inversion L as [| |i x l0 q y I L']; subst. apply (proj1 (F x (nth_error_In _ _ I)) q t L').
    - intros t L. inversion L as [| |i x l0 q y I L']; subst. apply (proj1 (proj2 (F x (nth_error_In _ _ I))) q t L').
    - intros l' k y L. inversion L as [| |i x l0 q z I L']; subst. apply (proj2 (proj2 (F x (nth_error_In _ _ I))) q l' k y L'). }
  assert (Obj : forall l, Forall (fun p => unicode_string (fst p) /\ writable (snd p)) l -> writable (JObject l)).
  { intros l F. rewrite Forall_forall in F. split; [|split]; intros p.
    - intros t L. inversion L as [|k x l0 q y I L'|]; subst. apply (proj1 (proj2 (F (k, x) I)) q t L').
    - intros t L. inversion L as [|k x l0 q y I L'|]; subst. apply (proj1 (proj2 (proj2 (F (k, x) I))) q t L').
    - intros l' k y L Y. inversion L as [|k' x l0 q z I L'|]; subst; [exact (proj1 (F (k, y) Y))|]. apply (proj2 (proj2 (proj2 (F (k', x) I))) q l' k y L' Y). }
  assert (St : forall s, unicode_string s -> writable (JString s)).
  { intros s U. split; [|split]; intros p; [intros t L; inversion L|intros t L; inversion L; subst; exact U|intros l k x L; inversion L]. }
  assert (Nu : writable JNull) by (split; [|split]; intros p; [intros t L; inversion L|intros t L; inversion L|intros l k x L; inversion L]).
  assert (As : forall s, ascii_string (lit s) -> unicode_string (lit s)) by (intros s; apply ascii_unicode).
  split; intros l F; [change (bytes_of (JArray (map fn_json l)) (utf8 (write_json (JArray (map fn_json l)))))|change (bytes_of (JArray (map var_json l)) (utf8 (write_json (JArray (map var_json l)))))];
    apply C99_written; apply Arr; apply Forall_map; refine (Forall_impl _ _ F).
  - intros [n al d] (A & B & C). cbn [i_name i_aliases i_description] in *. unfold fn_json. cbn [i_name i_aliases i_description]. apply Obj.
    constructor; [split; [apply As; repeat constructor|cbn [snd]; apply St; exact A]|]. constructor; [split; [apply As; repeat constructor|cbn [snd]; apply Arr; apply Forall_map; exact (Forall_impl _ St B)]|].
    constructor; [split; [apply As; repeat constructor|cbn [snd]; destruct d; [apply St; exact C|exact Nu]]|constructor].
  - intros [n v] (A & B). cbn [fst snd] in *. apply Obj.
    constructor; [split; [apply As; repeat constructor|cbn [snd]; apply St; exact A]|]. constructor; [split; [apply As; repeat constructor|cbn [snd]; apply St; exact B]|constructor].
Qed.
Print Assumptions C99_lists.
Example C99_case : write_json (evaluated_json (fun _ => lit "no ""x""") (Evaluated None (Some (Failure InvalidInput)))) = lit "{""result"":null,""error"":""no \""x\""""}" /\
  write_string [10; 1; 233] = [34; 92; 110; 92; 117; 48; 48; 48; 49; 233; 34] /\
  write_json (JArray [fn_json (FnInfo (lit "max") [lit "m"] None)]) = lit "[{""name"":""max"",""aliases"":[""m""],""description"":null}]".
Proof. repeat split; vm_compute; reflexivity. Qed.

(** ** C100: query strings *)

(** A query string has one reading, and the server reads it so. *)
Theorem C100_reading : forall s, query_is s (query_pairs s) /\ forall ps, query_is s ps -> ps = query_pairs s.
Proof. intros s. split; [apply pairs_spec|]. intros ps H. exact (query_fun s ps H _ (pairs_spec s)). Qed.
Print Assumptions C100_reading.

(** A successful evaluation is answered with the bare result exactly if [only_result] is there once and is [true]; in every other case,
    such as [only_result=1], [only_result=True] or [only_result] twice, as if it were not there. *)
Theorem C100_only_result : forall D W (sv : service D W) E dbg q query ps s w w', query_is query ps -> eval_expression sv E dbg q w = (Ok (inl s), w') ->
  (once ps "only_result" (lit "true") -> endpoint sv E dbg (Received q) (only_result query) w = (Ok (200, Plain s), w')) /\
  (~ once ps "only_result" (lit "true") -> endpoint sv E dbg (Received q) (only_result query) w = (Ok (200, Json (Evaluated (Some s) None)), w')).
Proof.
  intros D W sv E dbg q query ps s w w' P Q. rewrite (proj2 (C100_reading query) ps P). cbn [endpoint]. unfold bind, ret. rewrite Q. split.
  - intros O. assert (X : only_result query = Some true) by (unfold only_result; apply query_field_spec; exists (lit "true"); split; [exact O|reflexivity]). rewrite X. reflexivity.
  - intros N. destruct (only_result query) as [[|]|] eqn:X; [|reflexivity..]. exfalso. apply N. unfold only_result in X. apply query_field_spec in X. destruct X as (v & O & V). unfold read_bool in V.
    destruct (str_eqb v (lit "true")) eqn:K; [apply str_eqb_eq in K; subst; exact O|]. destruct (str_eqb v (lit "false")); discriminate.
Qed.
Print Assumptions C100_only_result.

(** The type whose names are listed: the one named, in lower case, by a [type] that is there once; otherwise decimal numbers. *)
Theorem C100_type : forall D W (sv : service D W) E dbg query ps, query_is query ps ->
  (forall t n, In (t, n) type_names -> once ps "type" (lit n) -> listed sv E dbg (query_type query) = listed sv E dbg (Some t)) /\
  ((forall t n, In (t, n) type_names -> ~ once ps "type" (lit n)) -> listed sv E dbg (query_type query) = listed sv E dbg (Some NDecimal)).
Proof.
  intros D W sv E dbg query ps P. rewrite (proj2 (C100_reading query) ps P). split.
  - intros t n I O. assert (X : query_type query = Some t). { unfold query_type. apply query_field_spec. exists (lit n). split; [exact O|]. apply (variant_spec (fun _ => None)). eauto. } rewrite X. reflexivity.
  - intros N. destruct (query_type query) as [t|] eqn:X; [|reflexivity]. exfalso. unfold query_type in X. apply query_field_spec in X. destruct X as (v & O & V). apply (variant_spec (fun _ => None)) in V. destruct V as (n & I & ->). exact (N t n I O).
Qed.
Print Assumptions C100_type.
Example C100_case : only_result (lit "x=1&&only%5fresult=tru%65&b") = Some true /\ only_result (lit "only_result=true&only_result=true") = None /\ only_result (lit "only_result=1") = None /\
  query_pairs (lit "a=1+2%2B3&b&=c=%g1&&") = [(lit "a", lit "1 2+3"); (lit "b", []); ([], lit "c=%g1")] /\
  query_type (lit "type=integer&x") = Some NInteger /\ query_type (lit "type=Integer") = None /\ query_type (lit "type=integer&type=binary") = None /\
  once (query_pairs (lit "x=1&&only%5fresult=tru%65&b")) "only_result" (lit "true").
Proof.
  repeat match goal with |- _ /\ _ => split; [vm_compute; reflexivity|] end. apply field_once. vm_compute. reflexivity.
Qed.
