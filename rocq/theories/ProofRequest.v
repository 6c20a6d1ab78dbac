(** * Requests in JSON *)
From Coq Require Import List NArith Bool Arith Lia String.
From Verif Require Import ModelBase ModelText ModelFloat.
From Verif Require Import ModelServer.
From Verif Require Import ModelJson SpecJson.
Import ListNotations.

Section Requests.
Variable number : str -> option f64.

Lemma variable_spec : forall j v, read_variable number j = inl v <-> variable_of number j v.
Proof.
  intros j v. unfold read_variable. split.
  - destruct (content_error number 125 j); [discriminate|]. destruct j as [|b|t|s|l|l]; try discriminate.
    + destruct (number t) eqn:K; [|discriminate]. intros H. injection H as <-. constructor. exact K.
    + intros H. injection H as <-. constructor.
  - destruct 1 as [s|t x K]; [reflexivity|]. cbn [content_error]. rewrite K. reflexivity.
Qed.
Lemma variant_spec : forall s t, variant s = Some t <-> exists n, In (t, n) type_names /\ s = lit n.
Proof.
  intros s t. unfold variant. split.
  - intros H.
    repeat match type of H with (if str_eqb s ?w then _ else _) = _ => let K := fresh "K" in destruct (str_eqb s w) eqn:K; [apply str_eqb_eq in K; injection H as <-; eexists; split; [|exact K]; cbn; tauto|] end. discriminate.
  - intros (n & H & ->). cbn in H. repeat (destruct H as [H|H]; [injection H as <- <-; reflexivity|]). destruct H.
Qed.
Lemma type_spec : forall j t, read_type j = inl t <-> type_of j t.
Proof.
  intros j t. split.
  - destruct j as [|b|x|s|l|l]; cbn [read_type]; try discriminate.
    + intros H. injection H as <-. constructor.
    + destruct (variant s) as [y|] eqn:K; [|discriminate]. intros H. injection H as <-. apply variant_spec in K. destruct K as (n & I & ->). apply y_name. exact I.
    + destruct l as [|[k v] l]; [discriminate|]. destruct (variant k) as [y|] eqn:K; [|discriminate]. apply variant_spec in K. destruct K as (n & I & ->). destruct v; try discriminate. destruct l; [|discriminate].
      intros H. injection H as <-. apply y_object. exact I.
  - destruct 1 as [|t n I|t n I]; [reflexivity| |].
    + cbn [read_type]. rewrite (proj2 (variant_spec (lit n) t)); [reflexivity|]. exists n. auto.
    + cbn [read_type]. rewrite (proj2 (variant_spec (lit n) t)); [reflexivity|]. exists n. auto.
Qed.

(** ** The variables *)
Opaque read_variable.
Lemma insert_spec : forall k v m, NoDup (map fst m) -> NoDup (map fst (insert k v m)) /\
  (forall x, In x (map fst (insert k v m)) <-> x = k \/ In x (map fst m)) /\
  forall k' v', In (k', v') (insert k v m) <-> (k' = k /\ v' = v) \/ (k' <> k /\ In (k', v') m).
Proof.
  intros k v m. induction m as [|[k0 v0] m IH]; intros N; cbn [insert].
  - split; [constructor; [intros []|constructor]|]. split; [intros x; cbn; intuition congruence|]. intros k' v'. cbn. split; [intros [H|[]]; injection H as <- <-; auto|intros [[-> ->]|[_ []]]; auto].
  - cbn [map fst] in N. inversion N as [|? ? N1 N2]; subst. destruct (str_eqb k k0) eqn:K.
    + apply str_eqb_eq in K. subst k0. cbn [map fst]. split; [constructor; assumption|]. split; [intros x; cbn; intuition congruence|]. intros k' v'. cbn [In]. split.
      * intros [H|H]; [injection H as <- <-; auto|]. right. split; [intros ->; apply N1; apply in_map_iff; exists (k, v'); auto|auto].
      * intros [[-> ->]|[Hk [H|H]]]; [auto|injection H as <- <-; congruence|auto].
    + assert (Hk : k0 <> k) by (intros ->; rewrite str_eqb_refl in K; discriminate). destruct (IH N2) as (A & B & C). cbn [map fst]. split.
      * constructor; [|exact A]. intros X. apply B in X. destruct X as [X|X]; [congruence|contradiction].
      * split; [intros x; cbn [In]; rewrite B; tauto|]. intros k' v'. cbn [In]. rewrite C. split.
        -- intros [H|[H|[H1 H2]]]; [injection H as <- <-; auto|auto|auto].
        -- intros [H|[H1 [H|H]]]; auto.
Qed.
Lemma last_cons : forall k j l k' j', last_member ((k, j) :: l) k' j' <-> last_member l k' j' \/ (k' = k /\ j' = j /\ ~ In k' (map fst l)).
Proof.
  intros k j l k' j'. split.
  - intros ([|p a] & b & E & N); [injection E as <- <- <-; auto|]. injection E as <- ->. left. exists a, b. auto.
  - intros [(a & b & -> & N)|(-> & -> & N)]; [exists ((k, j) :: a), b; auto|exists [], l; auto].
Qed.
Lemma last_in : forall l k j, last_member l k j -> In k (map fst l).
Proof. intros l k j (a & b & -> & _). rewrite map_app. apply in_or_app. right. left. reflexivity. Qed.
Lemma last_exists : forall l k, In k (map fst l) -> exists j, last_member l k j.
Proof.
  induction l as [|[k0 j0] l IH]; intros k H; [destruct H|]. cbn in H. destruct (in_dec (list_eq_dec N.eq_dec) k (map fst l)) as [I|I].
  - destruct (IH k I) as [j L]. exists j. apply last_cons. auto.
  - destruct H as [<-|H]; [|contradiction]. exists j0. apply last_cons. auto.
Qed.
Lemma map_spec : forall l m, NoDup (map fst m) -> (forall k j, In (k, j) l -> exists v, variable_of number j v) ->
  exists m', read_map number l m = inl m' /\ NoDup (map fst m') /\ forall k v, In (k, v) m' <-> (exists j, last_member l k j /\ variable_of number j v) \/ (~ In k (map fst l) /\ In (k, v) m).
Proof.
  induction l as [|[k0 j0] l IH]; intros m N H.
  - exists m. split; [reflexivity|]. split; [exact N|]. intros k v. split; [auto|]. intros [(j & L & _)|[_ L]]; [apply last_in in L; destruct L|exact L].
  - destruct (H k0 j0 (or_introl eq_refl)) as (v0 & V0). cbn [read_map]. rewrite (proj2 (variable_spec j0 v0) V0). destruct (insert_spec k0 v0 m N) as (N' & _ & C).
    destruct (IH (insert k0 v0 m) N' (fun k j I => H k j (or_intror I))) as (m' & E & Nm & S). exists m'. split; [exact E|]. split; [exact Nm|]. intros k v. rewrite S, C. cbn [map fst In]. split.
    + intros [(j & L & V)|[I [[-> ->]|[K I']]]].
      * left. exists j. rewrite last_cons. auto.
      * left. exists j0. rewrite last_cons. auto.
      * right. split; [|exact I']. intros [X|X]; [congruence|contradiction].
    + intros [(j & L & V)|[I I']].
      * apply last_cons in L. destruct L as [L|(-> & -> & I)]; [left; eauto|]. right. split; [exact I|]. left. split; [reflexivity|]. inversion V; inversion V0; subst; congruence.
      * right. split; [tauto|]. right. split; [intros ->; tauto|exact I'].
Qed.
Lemma map_good : forall l m m', read_map number l m = inl m' -> forall k j, In (k, j) l -> exists v, variable_of number j v.
Proof.
  induction l as [|[k0 j0] l IH]; intros m m' E k j I; [destruct I|]. cbn [read_map] in E. destruct (read_variable number j0) as [v|p] eqn:K; [|discriminate]. destruct I as [I|I].
  - assert (Ej : j0 = j) by congruence. rewrite Ej in K. exists v. apply variable_spec. exact K.
  - exact (IH _ _ E k j I).
Qed.
Lemma variables_sound : forall j v, read_variables number j = inl v -> variables_of number j v.
Proof.
  intros j v H. unfold read_variables in H. destruct j as [|b|t|s|l|l]; try (exfalso; discriminate H).
  - injection H as <-. constructor.
  - destruct (read_map number l []) as [m|p] eqn:E; [|discriminate]. injection H as <-. pose proof (map_good l [] m E) as G. destruct (map_spec l [] (NoDup_nil _) G) as (m' & E' & Nm & S). rewrite E in E'. injection E' as <-.
    constructor; [exact Nm|exact G|]. intros k v. rewrite S. split; [intros [X|[_ []]]; exact X|auto].
Qed.
Definition same_variables (a b : option (list (str * variable))) : Prop :=
  match a, b with None, None => True | Some m, Some n => NoDup (map fst m) /\ NoDup (map fst n) /\ forall p, In p m <-> In p n | _, _ => False end.
Lemma variables_complete : forall j v, variables_of number j v -> exists v', read_variables number j = inl v' /\ same_variables v v'.
Proof.
  intros j v H. destruct H as [|l m N G S]; [exists None; split; [reflexivity|exact I]|]. destruct (map_spec l [] (NoDup_nil _) G) as (m' & E & Nm & S'). exists (Some m'). cbn [read_variables]. rewrite E. split; [reflexivity|].
  split; [exact N|]. split; [exact Nm|]. intros [k v]. rewrite S, S'. split; [auto|]. intros [X|[_ []]]. exact X.
Qed.

(** ** The fields *)
Definition look (n : string) (l : list (str * json)) : list (str * json) := filter (fun p => str_eqb (fst p) (lit n)) l.
Lemma look_absent : forall n l, look n l = [] <-> absent l n.
Proof.
  intros n l. unfold look, absent. induction l as [|[k j] l IH]; [split; [intros _ []|reflexivity]|]. cbn [filter map fst In]. destruct (str_eqb k (lit n)) eqn:K.
  - apply str_eqb_eq in K. subst. split; [discriminate|]. intros H. exfalso. apply H. auto.
  - rewrite IH. split; [|tauto]. intros H [X|X]; [subst; rewrite str_eqb_refl in K; discriminate|contradiction].
Qed.
Lemma look_only : forall n l j, look n l = [(lit n, j)] <-> only l n j.
Proof.
  intros n l j. unfold only. split.
  - induction l as [|[k x] l IH]; [discriminate|]. unfold look in *. cbn [filter fst]. destruct (str_eqb k (lit n)) eqn:K.
    + intros H. injection H as -> -> H. exists [], l. split; [reflexivity|]. split; [intros []|]. apply look_absent. exact H.
    + intros H. destruct (IH H) as (a & b & -> & A & B). exists ((k, x) :: a), b. split; [reflexivity|]. split; [|exact B]. cbn. intros [X|X]; [subst; rewrite str_eqb_refl in K; discriminate|contradiction].
  - intros (a & b & -> & A & B). unfold look. rewrite filter_app. cbn [filter fst]. rewrite str_eqb_refl. apply look_absent in A, B. unfold look in A, B. rewrite A, B. reflexivity.
Qed.
Definition needed (o : option str) (l : list (str * json)) (e : str) : Prop :=
  match o with Some e0 => look "expression" l = [] /\ e = e0 | None => exists j, look "expression" l = [(lit "expression", j)] /\ read_expression j = inl e end.
Definition allowed {A} (n : string) (read : json -> option A + path) (o : option (option A)) (l : list (str * json)) (t : option A) : Prop :=
  match o with Some t0 => look n l = [] /\ t = t0 | None => (look n l = [] /\ t = None) \/ exists j, look n l = [(lit n, j)] /\ read j = inl t end.
Lemma at_inl : forall A g (r : A + path) a, at_ g r = inl a -> r = inl a. Proof. intros A g [x|p] a H; [exact H|discriminate]. Qed.
Lemma look_hit : forall n j l, look n ((lit n, j) :: l) = (lit n, j) :: look n l. Proof. intros. unfold look. cbn [filter fst]. rewrite str_eqb_refl. reflexivity. Qed.
Lemma look_miss : forall n k j l, str_eqb k (lit n) = false -> look n ((k, j) :: l) = look n l. Proof. intros n k j l K. unfold look. cbn [filter fst]. rewrite K. reflexivity. Qed.
Lemma allowed_some : forall A n (read : json -> option A + path) t0 l t, allowed n read (Some t0) l t -> forall j, allowed n read None ((lit n, j) :: l) t <-> (read j = inl t0 /\ t = t0) \/ (read j = inl t /\ t = t0).
Proof.
  intros A n read t0 l t [H ->] j. unfold allowed. rewrite look_hit, H. split.
  - intros [[X _]|(j' & X & R)]; [discriminate|]. injection X as <-. auto.
  - intros X. right. exists j. split; [reflexivity|tauto].
Qed.
Lemma fields_spec : forall l f e t v, read_fields number l f = inl (Request e t v) <->
  needed (f_expression f) l e /\ allowed "type" read_type (f_type f) l t /\ allowed "variables" (read_variables number) (f_variables f) l v.
Proof.
  induction l as [|[k j] l IH]; intros f e t v; cbn [read_fields].
  - unfold needed, allowed. cbn [look filter]. destruct f as [fe ft fv]. cbn [f_expression f_type f_variables]. split.
    + destruct fe as [e0|]; [|discriminate]. intros H. injection H as <- <- <-. split; [auto|]. split; [destruct ft; cbn; auto|destruct fv; cbn; auto].
    + intros (A & B & C). destruct fe as [e0|]; [|destruct A as (x & X & _); discriminate]. destruct A as [_ ->]. f_equal. f_equal.
      * destruct ft; [destruct B as [_ ->]; reflexivity|]. destruct B as [[_ ->]|(x & X & _)]; [reflexivity|discriminate].
      * destruct fv; [destruct C as [_ ->]; reflexivity|]. destruct C as [[_ ->]|(x & X & _)]; [reflexivity|discriminate].
  - destruct (str_eqb k (lit "expression")) eqn:K1; [|destruct (str_eqb k (lit "type")) eqn:K2; [|destruct (str_eqb k (lit "variables")) eqn:K3]].
    + apply str_eqb_eq in K1. subst k. unfold allowed. rewrite !(look_miss "type"), !(look_miss "variables") by reflexivity. unfold needed. rewrite look_hit. destruct (f_expression f) as [e0|] eqn:Fe.
      * split; [discriminate|]. intros ([X _] & _). discriminate.
      * unfold read_expression. destruct j as [|b|x|s|a|a]; cbn [at_]; try (split; [discriminate|]; intros ((j' & X & R) & _); injection X as <- _; discriminate).
        rewrite IH. cbn [f_expression f_type f_variables needed]. unfold allowed. split.
        -- intros ([X ->] & B). split; [|exact B]. exists (JString s). rewrite X. auto.
        -- intros ((j' & X & R) & B). injection X as <- X. injection R as <-. auto.
    + apply str_eqb_eq in K2. subst k. unfold allowed. unfold needed. rewrite (look_miss "variables"), (look_miss "expression") by reflexivity. rewrite look_hit. destruct (f_type f) as [t0|] eqn:Ft.
      * split; [discriminate|]. intros (_ & [X _] & _). discriminate.
      * destruct (read_type j) as [t1|p] eqn:R; cbn [at_].
        -- rewrite IH. cbn [f_expression f_type f_variables]. unfold needed, allowed. split.
           ++ intros (A & [X ->] & B). split; [exact A|]. split; [|exact B]. right. exists j. rewrite X. auto.
           ++ intros (A & [[X _]|(j' & X & R')] & B); [discriminate|]. injection X as <- X. rewrite R in R'. injection R' as ->. auto.
        -- split; [discriminate|]. intros (_ & [[X _]|(j' & X & R')] & _); [discriminate|]. injection X as <- X. congruence.
    + apply str_eqb_eq in K3. subst k. unfold allowed. unfold needed. rewrite (look_miss "type"), (look_miss "expression") by reflexivity. rewrite look_hit. destruct (f_variables f) as [v0|] eqn:Fv.
      * split; [discriminate|]. intros (_ & _ & [X _]). discriminate.
      * destruct (read_variables number j) as [v1|p] eqn:R; cbn [at_].
        -- rewrite IH. cbn [f_expression f_type f_variables]. unfold needed, allowed. split.
           ++ intros (A & B & [X ->]). split; [exact A|]. split; [exact B|]. right. exists j. rewrite X. auto.
           ++ intros (A & B & [[X _]|(j' & X & R')]); [discriminate|]. injection X as <- X. rewrite R in R'. injection R' as ->. auto.
        -- split; [discriminate|]. intros (_ & _ & [[X _]|(j' & X & R')]); [discriminate|]. injection X as <- X. congruence.
    + rewrite IH. unfold needed, allowed. rewrite (look_miss "type"), (look_miss "expression"), (look_miss "variables") by assumption. reflexivity.
Qed.
Lemma sequence_spec : forall l e t v, read_sequence number l = inl (Request e t v) <-> exists j k, l = [JString e; j; k] /\ read_type j = inl t /\ read_variables number k = inl v.
Proof.
  intros l e t v. split.
  - unfold read_sequence. destruct l as [|je l]; [discriminate|]. destruct je as [|b|x|s|a|a]; cbn [read_expression at_]; try discriminate. destruct l as [|jt l]; [discriminate|].
    destruct (read_type jt) as [t0|p] eqn:T; cbn [at_]; [|discriminate]. destruct l as [|jv l]; [discriminate|]. destruct (read_variables number jv) as [v0|p] eqn:V; cbn [at_]; [|discriminate]. destruct l; [|discriminate].
    intros H. injection H as -> -> ->. exists jt, jv. auto.
  - intros (j & k & -> & T & V). cbn. rewrite T, V. reflexivity.
Qed.
(** ** What is wrong, and where *)
Transparent read_variable.
Lemma content_sound : forall n j p, content_error number n j = Some p ->
  exists x, leads p j x /\ ((exists t, x = JNumber t /\ number t = None) \/ (compound x /\ List.length p = n)).
Proof.
  induction n as [|n IH]; intros j p H.
  - destruct j as [|b|t|s|l|l]; cbn [content_error] in H; try discriminate.
    + destruct (number t) eqn:K; [discriminate|]. injection H as <-. exists (JNumber t). split; [constructor|eauto].
    + injection H as <-. exists (JArray l). split; [constructor|]. right. split; [left; eauto|reflexivity].
    + injection H as <-. exists (JObject l). split; [constructor|]. right. split; [right; eauto|reflexivity].
  - destruct j as [|b|t|s|l|l]; try discriminate.
    + cbn [content_error] in H. destruct (number t) eqn:K; [discriminate|]. injection H as <-. exists (JNumber t). split; [constructor|eauto].
    + cbn [content_error] in H.
      assert (G : forall l' pre, l = pre ++ l' -> (fix elements (i : nat) (l : list json) : option path :=
                  match l with [] => None | x :: l => match content_error number n x with Some p => Some (Index i :: p) | None => elements (S i) l end end) (List.length pre) l' = Some p ->
         exists i q x, p = Index i :: q /\ nth_error l i = Some x /\ content_error number n x = Some q).
      { induction l' as [|x l' IHl]; intros pre E Q; [discriminate|]. destruct (content_error number n x) as [q|] eqn:K.
        - injection Q as <-. exists (List.length pre), q, x. split; [reflexivity|]. split; [|exact K]. rewrite E, nth_error_app2 by apply le_n. rewrite Nat.sub_diag. reflexivity.
        - apply (IHl (pre ++ [x])); [rewrite <- app_assoc; exact E|]. rewrite app_length, Nat.add_comm. exact Q. }
      destruct (G l [] eq_refl H) as (i & q & x & -> & Hi & Q). destruct (IH x q Q) as (y & L & D). exists y. split; [econstructor; eassumption|]. destruct D as [D|[D1 D2]]; [auto|]. right. split; [exact D1|]. cbn [List.length]. congruence.
    + cbn [content_error] in H.
      assert (G : forall l', (forall z, In z l' -> In z l) -> (fix members (l : list (str * json)) : option path :=
                  match l with [] => None | (k, x) :: l => match content_error number n x with Some p => Some (Key k :: p) | None => members l end end) l' = Some p ->
         exists k q x, p = Key k :: q /\ In (k, x) l /\ content_error number n x = Some q).
      { induction l' as [|[k x] l' IHl]; intros E Q; [discriminate|]. destruct (content_error number n x) as [q|] eqn:K.
        - injection Q as <-. exists k, q, x. split; [reflexivity|]. split; [|exact K]. apply E. left. reflexivity.
        - apply IHl; [|exact Q]. intros z Z. apply E. right. exact Z. }
      destruct (G l (fun z Z => Z) H) as (k & q & x & -> & Hi & Q). destruct (IH x q Q) as (y & L & D). exists y. split; [econstructor; eassumption|]. destruct D as [D|[D1 D2]]; [auto|]. right. split; [exact D1|]. cbn [List.length]. congruence.
Qed.
Lemma content_complete : forall n j, content_error number n j = None -> forall p x, leads p j x -> ~ ((exists t, x = JNumber t /\ number t = None) \/ (compound x /\ List.length p = n)).
Proof.
  induction n as [|n IH]; intros j H p x L X.
  - destruct L as [j|k x l p y I L|i x l p y I L]; try (cbn [content_error] in H; discriminate). destruct X as [(t & -> & K)|[[[l ->]|[l ->]] _]]; cbn [content_error] in H; [rewrite K in H|..]; discriminate.
  - destruct L as [j|k z l p y I L|i z l p y I L].
    + destruct X as [(t & -> & K)|[_ X]]; [cbn [content_error] in H; rewrite K in H|]; discriminate.
    + cbn [content_error] in H. assert (G : content_error number n z = None).
      { clear - I H. induction l as [|[k0 x0] l IHl]; [destruct I|]. destruct (content_error number n x0) as [q|] eqn:K; [discriminate|]. destruct I as [I|I]; [congruence|]. exact (IHl H I). }
      apply (IH z G p y L). destruct X as [X|[X1 X2]]; [auto|]. right. split; [exact X1|]. cbn [List.length] in X2. congruence.
    + cbn [content_error] in H. assert (G : content_error number n z = None).
      { clear - I H. revert H I. generalize 0 as m. revert i. induction l as [|x0 l IHl]; intros i m H I; [destruct i; discriminate|]. destruct (content_error number n x0) as [q|] eqn:K; [discriminate|]. destruct i as [|i]; cbn [nth_error] in I; [congruence|]. exact (IHl i (S m) H I). }
      apply (IH z G p y L). destruct X as [X|[X1 X2]]; [auto|]. right. split; [exact X1|]. cbn [List.length] in X2. congruence.
Qed.
Definition levels : nat := 125.
Lemma read_variable_eq : forall j, read_variable number j = match content_error number levels j with
  | Some p => inr p
  | None => match j with
            | JString s => inl (VString s)
            | JNumber t => match number t with Some x => inl (VNumber x) | None => inr [] end
            | _ => inr []
            end
  end.
Proof. reflexivity. Qed.
Opaque levels read_variable.
Lemma unreadable_eq : forall p j, unreadable number p j <-> exists x, leads p j x /\ ((exists t, x = JNumber t /\ number t = None) \/ (compound x /\ List.length p = levels)).
Proof. Transparent levels. intros p j. unfold unreadable, levels. reflexivity. Qed.
Opaque levels.
Lemma variable_wrong : forall j, (~ exists v, variable_of number j v) -> exists p, read_variable number j = inr p /\ (unreadable number p j \/ (p = [] /\ forall q, ~ unreadable number q j)).
Proof.
  intros j N. destruct (read_variable number j) as [v|p] eqn:R; [exfalso; apply N; exists v; apply variable_spec; exact R|]. exists p. split; [reflexivity|]. rewrite read_variable_eq in R.
  destruct (content_error number levels j) as [p0|] eqn:K.
  - injection R as <-. left. apply unreadable_eq. apply content_sound. exact K.
  - right. split.
    + destruct j; try (injection R as <-; reflexivity); try discriminate. destruct (number text); [discriminate|]. injection R as <-. reflexivity.
    + intros q Q. apply unreadable_eq in Q. destruct Q as (x & L & X). exact (content_complete _ _ K q x L X).
Qed.
Lemma map_wrong : forall a m k j b, (forall k j, In (k, j) a -> exists v, variable_of number j v) -> (~ exists v, variable_of number j v) ->
  exists p, read_map number (a ++ (k, j) :: b) m = inr (Key k :: p) /\ (unreadable number p j \/ (p = [] /\ forall q, ~ unreadable number q j)).
Proof.
  induction a as [|[k0 j0] a IH]; intros m k j b G N.
  - destruct (variable_wrong j N) as (p & R & P). exists p. split; [|exact P]. cbn [app read_map]. rewrite R. reflexivity.
  - cbn [app read_map]. destruct (G k0 j0 (or_introl eq_refl)) as (v & V). rewrite (proj2 (variable_spec j0 v) V). apply IH; [|exact N]. intros k1 j1 I. apply (G k1 j1). right. exact I.
Qed.
Lemma type_wrong : forall j, (~ exists t, type_of j t) -> exists p, read_type j = inr p /\
  ((exists k v l t, j = JObject ((k, v) :: l) /\ type_of (JString k) (Some t) /\ v <> JNull /\ p = [Key k]) \/ ((forall k v l t, j = JObject ((k, v) :: l) -> type_of (JString k) (Some t) -> v = JNull) /\ p = [])).
Proof.
  intros j N. destruct (read_type j) as [t|p] eqn:R; [exfalso; apply N; exists t; apply type_spec; exact R|]. exists p. split; [reflexivity|].
  destruct j as [|b|x|s|l|l]; cbn [read_type] in R; try discriminate; try (injection R as <-; right; split; [discriminate|reflexivity]).
  - destruct (variant s); [discriminate|]. injection R as <-. right. split; [discriminate|reflexivity].
  - destruct l as [|[k v] l]; [injection R as <-; right; split; [discriminate|reflexivity]|]. destruct (variant k) as [t|] eqn:K.
    + assert (Y : type_of (JString k) (Some t)) by (apply type_spec; cbn [read_type]; rewrite K; reflexivity). destruct v; try (injection R as <-; left; exists k; eexists; exists l, t; split; [reflexivity|]; split; [exact Y|]; split; [discriminate|reflexivity]).
      destruct l; [discriminate|]. injection R as <-. right. split; [|reflexivity]. intros k' v' l' t' E _. congruence.
    + injection R as <-. right. split; [|reflexivity]. intros k' v' l' t' E Y. injection E as -> -> ->. apply type_spec in Y. cbn [read_type] in Y. rewrite K in Y. discriminate.
Qed.
(** ** Members that are in order *)
Definition seen (f : fields) (k : str) : Prop :=
  (k = lit "expression" /\ f_expression f <> None) \/ (k = lit "type" /\ f_type f <> None) \/ (k = lit "variables" /\ f_variables f <> None).
Lemma times_cons : forall k j l, times ((k, j) :: l) k = S (times l k).
Proof. intros. unfold times. cbn [map fst]. apply count_occ_cons_eq. reflexivity. Qed.
Lemma times_le : forall p l k, times l k <= times (p :: l) k.
Proof. intros p l k. unfold times. cbn [map count_occ]. destruct (list_eq_dec _ _ _); auto. Qed.
Lemma times_none : forall l k, times l k = 0 <-> ~ In k (map fst l).
Proof. intros. unfold times. symmetry. apply count_occ_not_In. Qed.
Lemma fine_tail : forall p l, fine number (p :: l) -> fine number l.
Proof. intros p l [A B]. split; [intros k j I; apply (A k j); right; exact I|]. intros k F. pose proof (times_le p l k). specialize (B k F). eapply Nat.le_trans; eassumption. Qed.
Lemma fine_head : forall k j l, fine number ((k, j) :: l) -> field k -> ~ In k (map fst l).
Proof. intros k j l [_ B] F. specialize (B k F). rewrite times_cons in B. apply times_none. lia. Qed.
Lemma fine_prefix : forall a f, fine number a -> (forall k, seen f k -> ~ In k (map fst a)) ->
  exists f', (forall r, read_fields number (a ++ r) f = read_fields number r f') /\ forall k, seen f' k <-> seen f k \/ (field k /\ In k (map fst a)).
Proof.
  induction a as [|[k j] a IH]; intros f F S.
  - exists f. split; [reflexivity|]. intros k. cbn. tauto.
  - pose proof (fine_tail _ _ F) as Fa. pose proof (proj1 F k j (or_introl eq_refl)) as (G1 & G2 & G3). pose proof (fun X => fine_head k j a F X) as Hd.
    assert (Sa : forall x, seen f x -> ~ In x (map fst a)) by (intros x X I; apply (S x X); right; exact I).
    assert (Sk : ~ seen f k) by (intros X; apply (S k X); left; reflexivity).
    destruct (str_eqb k (lit "expression")) eqn:K1; [|destruct (str_eqb k (lit "type")) eqn:K2; [|destruct (str_eqb k (lit "variables")) eqn:K3]].
    + apply str_eqb_eq in K1. destruct (G1 K1) as (e & ->). assert (Fk : field k) by (left; exact K1).
      destruct (f_expression f) as [e0|] eqn:Fe; [exfalso; apply Sk; left; split; [exact K1|congruence]|].
      destruct (IH (Fields (Some e) (f_type f) (f_variables f)) Fa) as (f' & E & P).
      { intros x [[X _]|[[X1 X2]|[X1 X2]]]; [rewrite X, <- K1; exact (Hd Fk)|apply Sa; right; left; auto|apply Sa; right; right; auto]. }
      exists f'. split.
      * intros r. cbn [app read_fields]. rewrite K1, str_eqb_refl, Fe. cbn [read_expression at_]. apply E.
      * intros x. rewrite P. unfold seen. cbn [f_expression f_type f_variables map fst In]. rewrite Fe. split.
        -- intros [[[X _]|[X|X]]|[X Y]]; [right; subst; auto|auto|auto|tauto].
        -- intros [[[X X2]|[X|X]]|[X [Y|Y]]]; [congruence|auto|auto|left; left; split; congruence|auto].
    + apply str_eqb_eq in K2. destruct (G2 K2) as (t & T). assert (Fk : field k) by (right; left; exact K2).
      destruct (f_type f) as [e0|] eqn:Fe; [exfalso; apply Sk; right; left; split; [exact K2|congruence]|].
      destruct (IH (Fields (f_expression f) (Some t) (f_variables f)) Fa) as (f' & E & P).
      { intros x [[X1 X2]|[[X _]|[X1 X2]]]; [apply Sa; left; auto|rewrite X, <- K2; exact (Hd Fk)|apply Sa; right; right; auto]. }
      exists f'. split.
      * intros r. cbn [app read_fields]. rewrite K1. rewrite K2, str_eqb_refl, Fe. rewrite (proj2 (type_spec j t) T). cbn [at_]. apply E.
      * intros x. rewrite P. unfold seen. cbn [f_expression f_type f_variables map fst In]. rewrite Fe. split.
        -- intros [[X|[[X _]|X]]|[X Y]]; [auto|right; subst; auto|auto|tauto].
        -- intros [[X|[[X X2]|X]]|[X [Y|Y]]]; [auto|congruence|auto|left; right; left; split; congruence|auto].
    + apply str_eqb_eq in K3. destruct (G3 K3) as (v0 & V0). assert (Fk : field k) by (right; right; exact K3). destruct (variables_complete j v0 V0) as (v & V & _).
      destruct (f_variables f) as [e0|] eqn:Fe; [exfalso; apply Sk; right; right; split; [exact K3|congruence]|].
      destruct (IH (Fields (f_expression f) (f_type f) (Some v)) Fa) as (f' & E & P).
      { intros x [[X1 X2]|[[X1 X2]|[X _]]]; [apply Sa; left; auto|apply Sa; right; left; auto|rewrite X, <- K3; exact (Hd Fk)]. }
      exists f'. split.
      * intros r. cbn [app read_fields]. rewrite K1, K2. rewrite K3, str_eqb_refl, Fe. rewrite V. cbn [at_]. apply E.
      * intros x. rewrite P. unfold seen. cbn [f_expression f_type f_variables map fst In]. rewrite Fe. split.
        -- intros [[X|[X|[X _]]]|[X Y]]; [auto|auto|right; subst; auto|tauto].
        -- intros [[X|[X|[X X2]]]|[X [Y|Y]]]; [auto|auto|congruence|left; right; right; split; congruence|auto].
    + assert (Nk : ~ field k) by (intros [X|[X|X]]; rewrite X, str_eqb_refl in *; discriminate).
      destruct (IH f Fa Sa) as (f' & E & P). exists f'. split; [intros r; cbn [app read_fields]; rewrite K1, K2, K3; apply E|]. intros x. rewrite P. cbn [map fst In]. split; [tauto|]. intros [X|[X [Y|Y]]]; [auto|subst; contradiction|auto].
Qed.
Lemma fine_start : forall a, fine number a -> exists f', (forall r, read_request number (JObject (a ++ r)) = read_fields number r f') /\ forall k, seen f' k <-> field k /\ In k (map fst a).
Proof.
  intros a F. destruct (fine_prefix a (Fields None None None) F) as (f' & E & P); [intros k [[_ X]|[[_ X]|[_ X]]]; cbn in X; congruence|]. exists f'. split; [exact E|]. intros k. rewrite P. unfold seen. cbn [f_expression f_type f_variables]. intuition congruence.
Qed.
End Requests.
