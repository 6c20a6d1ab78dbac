(** * Written JSON, query strings *)
From Coq Require Import List NArith Bool Arith Lia String.
From Verif Require Import ModelBase ModelText ModelSplit ModelFloat.
From Verif Require Import ModelServer.
From Verif Require Import ModelJson SpecText SpecLex SpecJson ProofLex ProofJson ProofUtf8.
Import ListNotations.
Local Open Scope N_scope.

(** ** Writing *)
Fixpoint json_ind' (P : json -> Prop) (H1 : P JNull) (H2 : forall b, P (JBool b)) (H3 : forall t, P (JNumber t)) (H4 : forall s, P (JString s))
  (H5 : forall l, Forall P l -> P (JArray l)) (H6 : forall l, Forall (fun p => P (snd p)) l -> P (JObject l)) (j : json) : P j :=
  match j with
  | JNull => H1 | JBool b => H2 b | JNumber t => H3 t | JString s => H4 s
  | JArray l => H5 l ((fix go l := match l return Forall P l with [] => Forall_nil _ | x :: l => Forall_cons x (json_ind' P H1 H2 H3 H4 H5 H6 x) (go l) end) l)
  | JObject l => H6 l ((fix go l := match l return Forall (fun p => P (snd p)) l with [] => Forall_nil _ | x :: l => Forall_cons x (json_ind' P H1 H2 H3 H4 H5 H6 (snd x)) (go l) end) l)
  end.
Lemma hex_digit_spec : forall n, n < 16 -> hex (hex_digit n) n.
Proof. intros n H. unfold hex_digit. destruct (n <? 10) eqn:K; [apply N.ltb_lt in K; constructor; exact K|]. apply N.ltb_ge in K. apply hex_lower. lia. Qed.
Lemma escape_text : forall c s t, string_text s t -> string_text (c :: s) (escape c ++ t).
Proof.
  intros c s t H. unfold escape.
  destruct (c =? 34) eqn:K1; [apply N.eqb_eq in K1; subst; apply s_short; [cbn; tauto|exact H]|].
  destruct (c =? 92) eqn:K2; [apply N.eqb_eq in K2; subst; apply s_short; [cbn; tauto|exact H]|].
  destruct (c =? 8) eqn:K3; [apply N.eqb_eq in K3; subst; apply s_short; [cbn; tauto|exact H]|].
  destruct (c =? 9) eqn:K4; [apply N.eqb_eq in K4; subst; apply s_short; [cbn; tauto|exact H]|].
  destruct (c =? 10) eqn:K5; [apply N.eqb_eq in K5; subst; apply s_short; [cbn; tauto|exact H]|].
  destruct (c =? 12) eqn:K6; [apply N.eqb_eq in K6; subst; apply s_short; [cbn; tauto|exact H]|].
  destruct (c =? 13) eqn:K7; [apply N.eqb_eq in K7; subst; apply s_short; [cbn; tauto|exact H]|].
  destruct (c <? 32) eqn:K8.
  - apply N.ltb_lt in K8. apply (s_code [48; 48; hex_digit (c / 16); hex_digit (c mod 16)] c s t); [|lia|exact H].
    pose proof (N.div_lt_upper_bound c 16 16 ltac:(lia) ltac:(lia)) as D. pose proof (N.mod_lt c 16 ltac:(lia)) as M.
    assert (E : c = 0 * 4096 + 0 * 256 + c / 16 * 16 + c mod 16) by (rewrite (N.div_mod c 16) at 1 by lia; lia). rewrite E at 3.
    constructor; [apply (hex_num 0); lia|apply (hex_num 0); lia|apply hex_digit_spec; exact D|apply hex_digit_spec; exact M].
  - apply N.ltb_ge in K8. apply N.eqb_neq in K1, K2. apply s_plain; assumption.
Qed.
Lemma string_written : forall s, string_text s (List.concat (map escape s) ++ [34]).
Proof. induction s as [|c s IH]; [constructor|]. cbn [map List.concat]. rewrite <- app_assoc. apply escape_text. exact IH. Qed.
Lemma joined_elements : forall l, l <> [] -> Forall (fun j => value_text j (write_json j)) l -> elements_text l (joined (map write_json l)).
Proof.
  intros l N F. induction F as [|j l Hj F IH]; [congruence|]. destruct l as [|j' l].
  - cbn [map joined]. assert (E : write_json j = [] ++ write_json j ++ []) by (rewrite app_nil_r; reflexivity). rewrite E. constructor; [constructor|exact Hj|constructor].
  - cbn [map joined]. apply (t_elements j [] (write_json j) [] (j' :: l) (joined (map write_json (j' :: l)))); [constructor|exact Hj|constructor|]. apply IH. discriminate.
Qed.
Lemma joined_members : forall l, l <> [] -> Forall (fun p : str * json => value_text (snd p) (write_json (snd p))) l ->
  members_text l (joined (map (fun '(k, v) => write_string k ++ 58 :: write_json v) l)).
Proof.
  intros l N F. induction F as [|[k j] l Hj F IH]; [congruence|]. cbn [snd] in Hj. assert (E : forall x, write_string k ++ x = 34 :: (List.concat (map escape k) ++ [34]) ++ x) by (intros x; reflexivity). destruct l as [|p l].
  - cbn [map joined]. rewrite E. pose proof (t_member [] k (List.concat (map escape k) ++ [34]) [] [] j (write_json j) [] (Forall_nil _) (string_written k) (Forall_nil _) (Forall_nil _) Hj (Forall_nil _)) as T.
    cbn [app] in T. rewrite app_nil_r in T. exact T.
  - pose proof (t_members [] k (List.concat (map escape k) ++ [34]) [] [] j (write_json j) [] (p :: l) _ (Forall_nil _) (string_written k) (Forall_nil _) (Forall_nil _) Hj (Forall_nil _) (IH ltac:(discriminate))) as T.
    cbn [app] in T. cbn [map joined]. cbn [map joined] in T. rewrite <- app_assoc. rewrite E. exact T.
Qed.
Lemma written : forall j, (forall p t, leads p j (JNumber t) -> number_text t) -> value_text j (write_json j).
Proof.
  induction j as [|b|t|s|l IH|l IH] using json_ind'; intros H.
  - constructor.
  - destruct b; constructor.
  - constructor. apply (H [] t). constructor.
  - cbn [write_json]. unfold write_string. constructor. apply string_written.
  - cbn [write_json]. destruct l as [|x l]; [apply (t_no_elements []); constructor|]. apply t_array. apply joined_elements; [discriminate|].
    rewrite Forall_forall in *. intros j I. apply IH; [exact I|]. intros p t L. destruct (In_nth_error _ _ I) as (i & E). apply (H (Index i :: p)). econstructor; eassumption.
  - cbn [write_json]. destruct l as [|x l]; [apply (t_no_members []); constructor|]. apply t_object. apply joined_members; [discriminate|].
    rewrite Forall_forall in *. intros [k j] I. cbn [snd]. apply (IH (k, j) I). intros p t L. apply (H (Key k :: p)). econstructor; eassumption.
Qed.
Lemma ascii_unicode : forall s, ascii_string s -> unicode_string s.
Proof. intros s. apply Forall_impl. intros c H. apply scalar_spec. lia. Qed.
Lemma digit_ascii : forall s, Forall digit s -> ascii_string s.
Proof. intros s. apply Forall_impl. unfold digit. intros c H. lia. Qed.
Lemma number_ascii : forall t, number_text t -> ascii_string t.
Proof.
  intros t [sign i f e S I F E]. assert (A : forall s, some_digits s -> ascii_string s) by (intros s [_ D]; apply digit_ascii; exact D).
  apply Forall_app; split; [|apply Forall_app; split; [|apply Forall_app; split]].
  - destruct S as [-> | ->]; repeat constructor.
  - destruct I as [->|(c & r & -> & C & D)]; [repeat constructor|]. constructor; [lia|apply digit_ascii; exact D].
  - destruct F as [->|(d & -> & D)]; [constructor|]. constructor; [lia|apply A; exact D].
  - destruct E as [->|(x & g & d & -> & X & G & D)]; [constructor|]. constructor; [destruct X as [-> | ->]; lia|]. apply Forall_app. split; [destruct G as [->|[-> | ->]]; repeat constructor|apply A; exact D].
Qed.
Lemma escape_unicode : forall c, is_scalar c = true -> unicode_string (escape c).
Proof.
  intros c H. unfold escape. repeat match goal with |- unicode_string (if ?b then _ else _) => destruct b eqn:?; try (repeat constructor; fail) end; [|constructor; [exact H|constructor]].
  match goal with K : (c <? 32) = true |- _ => apply N.ltb_lt in K; rename K into L end.
  apply ascii_unicode. pose proof (N.div_lt_upper_bound c 16 16 ltac:(lia) ltac:(lia)) as D. pose proof (N.mod_lt c 16 ltac:(lia)) as M.
  assert (G : forall n, n < 16 -> hex_digit n < 128) by (intros n X; unfold hex_digit; destruct (n <? 10); lia).
  repeat constructor; try lia; apply G; assumption.
Qed.
Lemma string_unicode : forall s, unicode_string s -> unicode_string (write_string s).
Proof.
  intros s H. unfold write_string. constructor; [reflexivity|]. apply Forall_app. split; [|constructor; [reflexivity|constructor]]. induction H as [|c s C H IH]; [constructor|]. cbn [map List.concat]. apply Forall_app. split; [apply escape_unicode; exact C|exact IH].
Qed.
Lemma joined_unicode : forall l, Forall unicode_string l -> unicode_string (joined l).
Proof. intros l F. induction F as [|x l X F IH]; [constructor|]. destruct l; [exact X|]. cbn [joined]. apply Forall_app. split; [exact X|]. constructor; [reflexivity|exact IH]. Qed.
Lemma writable_member : forall l k x, writable (JObject l) -> In (k, x) l -> writable x.
Proof.
  intros l k x (A & B & C) I. split; [|split]; intros p; [intros t L; apply (A (Key k :: p) t)|intros s L; apply (B (Key k :: p) s)|intros l' k' x' L I'; apply (C (Key k :: p) l' k' x'); [|exact I']]; econstructor; eassumption.
Qed.
Lemma writable_element : forall l x, writable (JArray l) -> In x l -> writable x.
Proof.
  intros l x (A & B & C) I. destruct (In_nth_error _ _ I) as (i & E).
  split; [|split]; intros p; [intros t L; apply (A (Index i :: p) t)|intros s L; apply (B (Index i :: p) s)|intros l' k' x' L I'; apply (C (Index i :: p) l' k' x'); [|exact I']]; econstructor; eassumption.
Qed.
Lemma written_unicode : forall j, writable j -> unicode_string (write_json j).
Proof.
  induction j as [|b|t|s|l IH|l IH] using json_ind'; intros H.
  - repeat constructor.
  - destruct b; repeat constructor.
  - apply ascii_unicode, number_ascii. apply (proj1 H []). constructor.
  - apply string_unicode. apply (proj1 (proj2 H) []). constructor.
  - cbn [write_json]. constructor; [reflexivity|]. apply Forall_app. split; [|constructor; [reflexivity|constructor]]. apply joined_unicode. apply Forall_map. rewrite Forall_forall in *. intros j I. apply (IH j I). exact (writable_element l j H I).
  - cbn [write_json]. constructor; [reflexivity|]. apply Forall_app. split; [|constructor; [reflexivity|constructor]]. apply joined_unicode. apply Forall_map. rewrite Forall_forall in *. intros [k j] I. apply Forall_app. split.
    + apply string_unicode. apply (proj2 (proj2 H) [] l k j); [constructor|exact I].
    + constructor; [reflexivity|]. apply (IH (k, j) I). exact (writable_member l k j H I).
Qed.
Lemma ends_nil : forall j, ends j []. Proof. intros [| | | | |]; exact I. Qed.
Lemma unambiguous : forall j j' s, value_text j s -> value_text j' s -> j = j'.
Proof.
  intros j j' s A B. pose proof (json_complete j [] s [] (Forall_nil _) A (ends_nil j)) as X. pose proof (json_complete j' [] s [] (Forall_nil _) B (ends_nil j')) as Y. rewrite X in Y. congruence.
Qed.
Lemma utf8_inj : forall s t, unicode_string s -> unicode_string t -> utf8 s = utf8 t -> s = t.
Proof. intros s t A B E. pose proof (decode_encode s A) as X. rewrite E, (decode_encode t B) in X. congruence. Qed.

(** ** Queries *)
Lemma decode_spec : forall n s, (List.length s <= n)%nat -> decodes s (percent_decode s).
Proof.
  induction n as [|n IH]; intros s L; destruct s as [|c r]; [constructor|cbn in L; lia|constructor|]. cbn [List.length] in L. cbn [percent_decode].
  destruct (c =? 43) eqn:K1; [apply N.eqb_eq in K1; subst; constructor; apply IH; lia|]. destruct (c =? 37) eqn:K2.
  - apply N.eqb_eq in K2. subst. destruct r as [|a [|b r]].
    + apply d_percent; [intros (a & b & x & y & r & E & _); discriminate|constructor].
    + apply d_percent; [intros (a' & b & x & y & r & E & _); discriminate|apply IH; lia].
    + cbn [List.length] in L. destruct (hex_value a) as [x|] eqn:A; [destruct (hex_value b) as [y|] eqn:B|].
      * apply d_byte; [apply hex_spec; exact A|apply hex_spec; exact B|apply IH; lia].
      * apply d_percent; [|apply IH; cbn [List.length]; lia]. intros (a' & b' & x' & y' & r' & E & _ & Hb). injection E as <- <- <-. apply hex_spec in Hb. congruence.
      * apply d_percent; [|apply IH; cbn [List.length]; lia]. intros (a' & b' & x' & y' & r' & E & Ha & _). injection E as <- <- <-. apply hex_spec in Ha. congruence.
  - apply N.eqb_neq in K1, K2. apply d_other; [exact K1|exact K2|apply IH; lia].
Qed.
Lemma decodes_fun : forall s t, decodes s t -> forall t', decodes s t' -> t = t'.
Proof.
  induction 1 as [|s t H IH|a b x y s t A B H IH|s t N H IH|c s t N1 N2 H IH]; intros t' H'; inversion H' as [|s0 t0 H0|a0 b0 x0 y0 s0 t0 A0 B0 H0|s0 t0 N0 H0|c0 s0 t0 N0 N0' H0]; subst; try congruence; try (f_equal; apply IH; assumption).
  - apply hex_spec in A, B, A0, B0. rewrite A in A0. rewrite B in B0. injection A0 as <-. injection B0 as <-. f_equal. apply IH. assumption.
  - exfalso. apply N0. exists a, b, x, y, s. auto.
  - exfalso. apply N. exists a0, b0, x0, y0, s0. auto.
Qed.
Lemma take_not : forall x s, exists p r, take_while (not_char x) s = (p, r) /\ s = p ++ r /\ ~ In x p /\ (r = [] \/ exists r', r = x :: r').
Proof.
  intros x. induction s as [|c s IH].
  - exists [], []. split; [reflexivity|]. split; [reflexivity|]. split; [intros []|auto].
  - cbn [take_while]. unfold not_char at 1. destruct (c =? x) eqn:K; cbn [negb].
    + apply N.eqb_eq in K. subst c. exists [], (x :: s). split; [reflexivity|]. split; [reflexivity|]. split; [intros []|eauto].
    + apply N.eqb_neq in K. destruct IH as (p & r & E & -> & N & R). rewrite E. exists (c :: p), r. split; [reflexivity|]. split; [reflexivity|]. split; [|exact R]. intros [X|X]; [congruence|contradiction].
Qed.
Lemma pair_spec : forall p, part_is p (query_pair p).
Proof.
  intros p. unfold query_pair. destruct (take_not 61 p) as (k & r & E & -> & N & R). rewrite E. destruct R as [->|(v & ->)].
  - rewrite app_nil_r. apply p_name; [exact N|apply (decode_spec (List.length k)); apply le_n].
  - apply p_value; [exact N|apply (decode_spec (List.length k)); apply le_n|apply (decode_spec (List.length v)); apply le_n].
Qed.
Lemma cut_unique : forall (x : N) a b a' b', ~ In x a -> ~ In x a' -> a ++ x :: b = a' ++ x :: b' -> a = a' /\ b = b'.
Proof.
  intros x. induction a as [|c a IH]; intros b [|c' a'] b' N N' E; cbn [app] in E.
  - injection E as <-. auto.
  - injection E as E1 E. exfalso. apply N'. left. congruence.
  - injection E as E1 E. exfalso. apply N. left. congruence.
  - injection E as <- E. destruct (IH b a' b') as [-> ->]; [intros I; apply N; right; exact I|intros I; apply N'; right; exact I|exact E|auto].
Qed.
Lemma part_fun : forall p kv kv', part_is p kv -> part_is p kv' -> kv = kv'.
Proof.
  intros p kv kv' H H'. inversion H as [k v k1 v1 N D1 D2 E|k k1 N D1 E]; inversion H' as [k' v' k1' v1' N' D1' D2' E'|k' k1' N' D1' E']; subst.
  - destruct (cut_unique 61 k v k' v') as [-> ->]; [assumption|assumption|congruence|]. rewrite (decodes_fun _ _ D1 _ D1'), (decodes_fun _ _ D2 _ D2'). reflexivity.
  - exfalso. apply N'. apply in_or_app. right. left. reflexivity.
  - exfalso. apply N. apply in_or_app. right. left. reflexivity.
  - rewrite (decodes_fun _ _ D1 _ D1'). reflexivity.
Qed.
Lemma parts_spec : forall n s, (List.length s < n)%nat -> query_is s (map query_pair (query_parts n s)).
Proof.
  induction n as [|n IH]; intros s L; [lia|]. destruct s as [|c s]; [constructor|]. cbn [query_parts]. destruct (take_not 38 (c :: s)) as (p & r & E & S & N & R). rewrite E.
  assert (Ls : (List.length (c :: s) = List.length p + List.length r)%nat) by (rewrite S; apply app_length). destruct R as [->|(r' & ->)].
  - rewrite app_nil_r in S. rewrite <- S in *. destruct n as [|n]; cbn [query_parts map]; (apply q_last; [discriminate|exact N|apply pair_spec]).
  - cbn [List.length] in Ls, L. destruct p as [|c' p].
    + cbn [app] in S. rewrite S. apply q_amp. apply IH. cbn [List.length] in Ls. unfold char in *. lia.
    + rewrite S. cbn [map]. apply q_part; [discriminate|exact N|apply pair_spec|]. apply IH. cbn [List.length] in Ls. unfold char in *. lia.
Qed.
Lemma query_fun : forall s ps, query_is s ps -> forall ps', query_is s ps' -> ps = ps'.
Proof.
  induction 1 as [|s ps H IH|p kv N1 N2 P|p kv s ps N1 N2 P H IH]; intros ps' H'.
  - inversion H' as [ | | |p' kv' s' ps2 M1 M2 P' H2 E]; subst; [reflexivity|congruence|]. destruct p'; discriminate.
  - inversion H' as [|s' ps2 H2 E|p' kv' M1 M2 P' E|p' kv' s' ps2 M1 M2 P' H2 E]; subst.
    + apply IH. exact H2.
    + exfalso. apply M2. left. reflexivity.
    + destruct p' as [|c p']; [congruence|]. injection E as -> _. exfalso. apply M2. left. reflexivity.
  - inversion H' as [E|s' ps2 H2 E|p' kv' M1 M2 P' E|p' kv' s' ps2 M1 M2 P' H2 E]; subst.
    + congruence.
    + exfalso. apply N2. left. reflexivity.
    + f_equal. exact (part_fun _ _ _ P P').
    + exfalso. apply N2. apply in_or_app. right. left. reflexivity.
  - inversion H' as [E|s' ps2 H2 E|p' kv' M1 M2 P' E|p' kv' s' ps2 M1 M2 P' H2 E]; subst.
    + destruct p; discriminate.
    + destruct p as [|c p]; [congruence|]. injection E as <- _. exfalso. apply N2. left. reflexivity.
    + exfalso. apply M2. apply in_or_app. right. left. reflexivity.
    + destruct (cut_unique 38 p s p' s') as [<- <-]; [assumption|assumption|congruence|]. f_equal; [exact (part_fun _ _ _ P P')|apply IH; exact H2].
Qed.
Lemma pairs_spec : forall s, query_is s (query_pairs s).
Proof. intros s. apply parts_spec. lia. Qed.
Lemma field_once : forall (ps : list (list N * list N)) n v, filter (fun p => str_eqb (fst p) (lit n)) ps = [(lit n, v)] <-> once ps n v.
Proof.
  intros ps n v.
  assert (Z : forall ps : list (list N * list N), filter (fun p => str_eqb (fst p) (lit n)) ps = [] <-> ~ In (lit n) (map fst ps)).
  { clear. induction ps as [|[k x] ps IH]; [split; [intros _ []|reflexivity]|]. cbn [filter map fst In]. destruct (str_eqb k (lit n)) eqn:K.
    - apply str_eqb_eq in K. subst. split; [discriminate|]. intros H. exfalso. apply H. auto.
    - rewrite IH. split; [|tauto]. intros H [X|X]; [subst; rewrite str_eqb_refl in K; discriminate|contradiction]. }
  unfold once. split.
  - induction ps as [|[k x] ps IH]; [discriminate|]. cbn [filter fst]. destruct (str_eqb k (lit n)) eqn:K.
    + intros H. injection H as E1 E2 H. subst. exists [], ps. split; [reflexivity|]. split; [intros []|apply Z; exact H].
    + intros H. destruct (IH H) as (a & b & -> & A & B). exists ((k, x) :: a), b. split; [reflexivity|]. split; [|exact B]. cbn. intros [X|X]; [subst; rewrite str_eqb_refl in K; discriminate|contradiction].
  - intros (a & b & -> & A & B). rewrite filter_app. cbn [filter fst]. rewrite str_eqb_refl. apply Z in A, B. rewrite A, B. reflexivity.
Qed.
Lemma query_field_spec : forall A n (value : list N -> option A) ps a, query_field (lit n) value ps = Some a <-> exists v, once ps n v /\ value v = Some a.
Proof.
  intros A n value ps a. unfold query_field. split.
  - intros H. destruct (filter (fun p => str_eqb (fst p) (lit n)) ps) as [|[k v] [|]] eqn:F; try discriminate. exists v. split; [|exact H]. apply field_once. rewrite F.
    assert (I : In (k, v) (filter (fun p => str_eqb (fst p) (lit n)) ps)) by (rewrite F; left; reflexivity). apply filter_In in I. destruct I as [_ I]. cbn [fst] in I. apply str_eqb_eq in I. rewrite I. reflexivity.
  - intros (v & O & V). apply field_once in O. rewrite O. exact V.
Qed.
