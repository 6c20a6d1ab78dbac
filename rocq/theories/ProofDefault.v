(** * Proofs about DefaultContext *)
From Coq Require Import List NArith Bool Lia.
From Verif Require Import ModelBase ModelContext ModelEvaluator ModelText ModelDefault SpecExpr SpecTokens SpecText SpecFrame ProofText ProofFrame.
Import ListNotations.

(** ** Maps as lists of entries *)
Section Maps.
Context {A : Type}.
Variable eqk : str -> str -> bool.
Notation get := (mget eqk (A := A)).
Notation put := (mput eqk (A := A)).

Lemma mget_cons : forall k v m q, get ((k, v) :: m) q = if eqk q k then Some v else get m q.
Proof. intros. unfold mget. simpl. destruct (eqk q k); reflexivity. Qed.
Lemma mget_none : forall m q, get m q = None <-> Forall (fun p => eqk q (fst p) = false) m.
Proof.
  induction m as [|[k v] m IH]; intros q; [split; auto|]. rewrite mget_cons. destruct (eqk q k) eqn:E.
  - split; [discriminate|]. intros H. inversion H. simpl in *. congruence.
  - rewrite IH. split; [intros; constructor; auto|intros H; inversion H; auto].
Qed.
Lemma mget_some : forall m q v, get m q = Some v -> exists k, In (k, v) m /\ eqk q k = true.
Proof.
  induction m as [|[k w] m IH]; intros q v H; [discriminate|]. rewrite mget_cons in H. destruct (eqk q k) eqn:E.
  - injection H as ->. exists k. split; [left; reflexivity|exact E].
  - destruct (IH _ _ H) as (k' & Hin & Hk). exists k'. split; [right; exact Hin|exact Hk].
Qed.
Lemma mget_app : forall m m' q, get (m ++ m') q = match get m q with Some v => Some v | None => get m' q end.
Proof.
  induction m as [|[k v] m IH]; intros m' q; [reflexivity|]. simpl. rewrite !mget_cons, IH. destruct (eqk q k); reflexivity.
Qed.
Lemma mput_fresh : forall m q v, get m q = None -> put m q v = m ++ [(q, v)].
Proof.
  induction m as [|[k w] m IH]; intros q v H; [reflexivity|]. rewrite mget_cons in H. simpl.
  destruct (eqk q k); [discriminate|]. rewrite IH by exact H. reflexivity.
Qed.
Lemma mput_app : forall m m' q v, get m q = None -> put (m ++ m') q v = m ++ put m' q v.
Proof.
  induction m as [|[k w] m IH]; intros m' q v H; [reflexivity|]. rewrite mget_cons in H. simpl.
  destruct (eqk q k); [discriminate|]. rewrite IH by exact H. reflexivity.
Qed.
Lemma mput_keys : forall m q v k w, In (k, w) (put m q v) -> In (k, w) m \/ (w = v /\ (k = q \/ (eqk q k = true /\ exists u, In (k, u) m))).
Proof.
  induction m as [|[k0 v0] m IH]; intros q v k w; simpl.
  - intros [H|[]]. injection H as <- <-. right. split; [reflexivity|left; reflexivity].
  - destruct (eqk q k0) eqn:E; intros [H|H]; auto.
    + injection H as <- <-. right. split; [reflexivity|]. right. split; [exact E|]. exists v0. auto.
    + apply IH in H. destruct H as [H|[-> [->|[H1 [u H2]]]]]; auto. right. split; [reflexivity|]. right. eauto.
Qed.
Lemma mput_old_keys : forall m q v k w, In (k, w) m -> exists w', In (k, w') (put m q v).
Proof.
  induction m as [|[k0 v0] m IH]; intros q v k w H; [destruct H|]. simpl. destruct (eqk q k0).
  - destruct H as [H|H]; [injection H as <- <-; exists v; left; reflexivity|exists w; right; exact H].
  - destruct H as [H|H]; [exists w; left; exact H|]. destruct (IH q v k w H) as [w' Hw]. exists w'. right. exact Hw.
Qed.
Lemma mput_new_key : forall m q v, exists k, In (k, v) (put m q v) /\ (k = q \/ eqk q k = true).
Proof.
  induction m as [|[k0 v0] m IH]; intros q v; simpl; [exists q; auto|]. destruct (eqk q k0) eqn:E.
  - exists k0. split; [left; reflexivity|right; exact E].
  - destruct (IH q v) as (k & H & Hk). exists k. split; [right; exact H|exact Hk].
Qed.
(** Looking up a key that matches exactly what [q] matches. *)
Lemma mget_mput_same : forall m q q' v, (forall k, eqk q' k = eqk q k) -> eqk q' q = true -> get (put m q v) q' = Some v.
Proof.
  induction m as [|[k w] m IH]; intros q q' v H Hs; simpl.
  - rewrite mget_cons, Hs. reflexivity.
  - destruct (eqk q k) eqn:E; rewrite mget_cons, H, E; [reflexivity|]. apply IH; assumption.
Qed.
Lemma mget_mput_other : forall m q q' v, eqk q' q = false -> (forall k, eqk q k = true -> eqk q' k = false) ->
  get (put m q v) q' = get m q'.
Proof.
  induction m as [|[k w] m IH]; intros q q' v Hn H; simpl.
  - rewrite mget_cons, Hn. reflexivity.
  - destruct (eqk q k) eqn:E; rewrite !mget_cons; [rewrite (H k E); reflexivity|]. rewrite IH by assumption. reflexivity.
Qed.
Lemma mget_ext : forall m q q', (forall k, eqk q k = eqk q' k) -> get m q = get m q'.
Proof. induction m as [|[k v] m IH]; intros q q' H; [reflexivity|]. rewrite !mget_cons, (IH q q' H), H. reflexivity. Qed.
End Maps.

Lemma str_neq : forall a b, a <> b -> str_eqb a b = false.
Proof. intros a b H. destruct (str_eqb a b) eqn:E; [|reflexivity]. apply str_eqb_eq in E. contradiction. Qed.
Lemma str_eqb_sym : forall a b, str_eqb a b = str_eqb b a.
Proof. intros. apply eq_true_iff_eq. rewrite !str_eqb_eq. split; congruence. Qed.

Section Default.
Context {V W : Type}.
Variable E : env.
Variable dbg : bool.
Notation D := (dctx V W).
Notation km := (key_match E).

(** ** Registration *)
Section Register.
Context {A : Type}.
Notation get := (mget km (A := A)).

Lemma insert_aliases_ok : forall aliases (f : A) m m', insert_aliases E aliases f m = (Ok tt, m') ->
  m' = m ++ map (fun a => (a, f)) aliases.
Proof.
  induction aliases as [|a aliases IH]; intros f m m' H; simpl in H.
  - injection H as <-. simpl. rewrite app_nil_r. reflexivity.
  - destruct (get m a) eqn:Eg; simpl in H; [discriminate|]. apply IH in H. rewrite (mput_fresh _ _ _ _ Eg) in H.
    rewrite H, <- app_assoc. reflexivity.
Qed.
Lemma insert_aliases_cases : forall aliases (f : A) m, let (r, _) := insert_aliases E aliases f m in r = Ok tt \/ r = Panic.
Proof.
  induction aliases as [|a aliases IH]; intros f m; simpl; [auto|]. destruct (get m a); simpl; [auto|]. apply IH.
Qed.

Lemma register_ok : forall aliases (f : A) name m m', register E dbg aliases f name m = (Ok tt, m') ->
  exists ext, m' = m ++ ext /\ (forall k g, In (k, g) ext -> g = f /\ In k (aliases ++ [name])) /\
    (forall n n', In n (aliases ++ [name]) -> ascii_alike n' n -> get m n = None /\ get m' n' = Some f).
Proof.
  intros aliases f name m m' H. unfold register in H.
  destruct (validate dbg name); try discriminate. destruct (get m name) eqn:En; simpl in H; [discriminate|].
  destruct (insert_aliases E aliases f m) as [[[]|k|] m1] eqn:Ei; try discriminate. injection H as <-.
  pose proof (insert_aliases_ok _ _ _ _ Ei) as ->.
  rewrite (mput_app _ _ _ _ _ En). exists (mput km (map (fun a => (a, f)) aliases) name f). split; [reflexivity|].
  assert (Hext : forall k g, In (k, g) (mput km (map (fun a => (a, f)) aliases) name f) -> g = f /\ In k (aliases ++ [name])).
  { intros k g Hin. apply mput_keys in Hin. destruct Hin as [Hin|[-> [->|[_ [u Hu]]]]].
    - apply in_map_iff in Hin. destruct Hin as (b0 & Ha & Hin). injection Ha as <- <-. split; [reflexivity|]. apply in_or_app. auto.
    - split; [reflexivity|]. apply in_or_app. right. left. reflexivity.
    - apply in_map_iff in Hu. destruct Hu as (b0 & Ha & Hin). injection Ha as <- <-. split; [reflexivity|]. apply in_or_app. auto. }
  split; [exact Hext|].
  assert (Hfree : forall n, In n (aliases ++ [name]) -> get m n = None).
  { intros n Hn. apply in_app_or in Hn. destruct Hn as [Hn|[<-|[]]]; [|exact En].
    clear -Ei Hn. revert m Ei. induction aliases as [|a aliases IH]; intros m Ei; [destruct Hn|]. simpl in Ei.
    destruct (get m a) eqn:Eg; simpl in Ei; [discriminate|]. destruct Hn as [->|Hn]; [exact Eg|].
    specialize (IH Hn (mput km m a f)). rewrite (mput_fresh _ _ _ _ Eg) in IH, Ei.
    replace ((m ++ [(a, f)]) ++ map (fun a0 => (a0, f)) aliases) with (m ++ map (fun a0 => (a0, f)) (a :: aliases)) in IH
      by (simpl; rewrite <- app_assoc; reflexivity).
    specialize (IH Ei). rewrite mget_app in IH. destruct (get m n); [discriminate|reflexivity]. }
  intros n n' Hn Hl. split; [apply Hfree; exact Hn|].
  assert (Hk : forall k, km n' k = km n k) by (intros k; apply key_match_alike; [exact Hl|apply alike_refl]).
  rewrite mget_app. rewrite (mget_ext _ _ _ _ Hk), (Hfree n Hn).
  destruct (get (mput km (map (fun a => (a, f)) aliases) name f) n') as [g|] eqn:Eg.
  - apply mget_some in Eg. destruct Eg as (k & Hin & _). apply Hext in Hin. destruct Hin as [-> _]. reflexivity.
  - exfalso. apply mget_none in Eg. rewrite Forall_forall in Eg. apply in_app_or in Hn. destruct Hn as [Hn|[<-|[]]].
    + assert (Hin : In (n, f) (map (fun a => (a, f)) aliases)) by (apply in_map_iff; exists n; auto).
      destruct (mput_old_keys km _ name f _ _ Hin) as [w Hw]. specialize (Eg _ Hw). simpl in Eg.
      rewrite (key_match_self E n' n Hl) in Eg. discriminate.
    + destruct (mput_new_key km (map (fun a => (a, f)) aliases) name f) as (k & Hin & Hkk). specialize (Eg _ Hin). simpl in Eg.
      destruct Hkk as [->|Hkk]; [rewrite (key_match_self E n' name Hl) in Eg; discriminate|]. rewrite Hk in Eg. congruence.
Qed.

Lemma register_err : forall aliases (f : A) name m k m', register E dbg aliases f name m = (Err k, m') -> m' = m.
Proof.
  intros aliases f name m k m' H. unfold register in H. destruct (validate dbg name); try congruence.
  destruct (is_some (get m name)); [congruence|]. pose proof (insert_aliases_cases aliases f m) as C.
  destruct (insert_aliases E aliases f m) as [[u|k'|] m1]; [congruence| |congruence]. destruct C; discriminate.
Qed.
(** When it succeeds: the name is valid and free, and so is every alias, and no alias repeats an earlier one. *)
Lemma insert_aliases_iff : forall aliases (f : A) m, fst (insert_aliases E aliases f m) = Ok tt <->
  (forall a, In a aliases -> get m a = None) /\ ForallOrdPairs (fun a b => km b a = false) aliases.
Proof.
  induction aliases as [|a aliases IH]; intros f m; simpl.
  - split; [intros _; split; [intros a []|constructor]|reflexivity].
  - destruct (get m a) as [v|] eqn:Eg; simpl.
    + split; [discriminate|]. intros [H _]. rewrite (H a) in Eg by auto. discriminate.
    + rewrite IH, (mput_fresh _ _ _ _ Eg). split.
      * intros [H1 H2]. split.
        -- intros b [<-|Hb]; [exact Eg|]. specialize (H1 b Hb). rewrite mget_app in H1. destruct (get m b); [discriminate|reflexivity].
        -- constructor; [|exact H2]. apply Forall_forall. intros b Hb. specialize (H1 b Hb). rewrite mget_app, mget_cons in H1.
           destruct (get m b); [discriminate|]. destruct (km b a); [discriminate|reflexivity].
      * intros [H1 H2]. inversion H2 as [|? ? Hf Hp]; subst. split; [|exact Hp]. intros b Hb. rewrite mget_app, mget_cons.
        rewrite H1 by auto. rewrite Forall_forall in Hf. rewrite Hf by exact Hb. reflexivity.
Qed.
Lemma validate_iff : forall name, validate dbg name = Ok tt <-> (dbg = true -> valid_name name).
Proof.
  intros name. unfold validate. destruct dbg; [rewrite check_name; tauto|]. split; [discriminate|reflexivity].
Qed.
Lemma validate_cases : forall name, validate dbg name = Ok tt \/ exists k, validate dbg name = Err k.
Proof. intros. unfold validate. destruct dbg; [apply check_name_cases|auto]. Qed.

Lemma register_iff : forall aliases (f : A) name m, fst (register E dbg aliases f name m) = Ok tt <->
  (dbg = true -> valid_name name) /\ get m name = None /\ (forall a, In a aliases -> get m a = None) /\
  ForallOrdPairs (fun a b => km b a = false) aliases.
Proof.
  intros aliases f name m. unfold register. rewrite <- validate_iff. rewrite <- (insert_aliases_iff aliases f m).
  destruct (validate dbg name) as [[]|k|] eqn:Ev; simpl; [|split; [discriminate|intros [H _]; discriminate]..].
  destruct (get m name) as [g|] eqn:Eg; simpl; [split; [discriminate|intros (_ & H & _); discriminate]|].
  destruct (insert_aliases E aliases f m) as [[[]|k|] m1] eqn:Ei; simpl; intuition congruence.
Qed.
Lemma register_panic_iff : forall aliases (f : A) name m, fst (register E dbg aliases f name m) = Panic <->
  (dbg = true -> valid_name name) /\ get m name = None /\
  ~ ((forall a, In a aliases -> get m a = None) /\ ForallOrdPairs (fun a b => km b a = false) aliases).
Proof.
  intros aliases f name m. unfold register. rewrite <- validate_iff. rewrite <- (insert_aliases_iff aliases f m).
  destruct (validate_cases name) as [Ev|[k Ev]]; rewrite Ev; simpl; [|split; [discriminate|intros [H _]; discriminate]].
  destruct (get m name) as [g|] eqn:Eg; simpl; [split; [discriminate|intros (_ & H & _); discriminate]|].
  pose proof (insert_aliases_cases aliases f m) as C. destruct (insert_aliases E aliases f m) as [[[]|k|] m1] eqn:Ei; simpl.
  - split; [discriminate|]. intros (_ & _ & H). exfalso. apply H. reflexivity.
  - destruct C; discriminate.
  - split; [|reflexivity]. intros _. split; [reflexivity|]. split; [reflexivity|discriminate].
Qed.
End Register.

(** ** The whole context *)
Notation lookup d := (to_ctx E d).

Lemma lookup_alike : forall (d : D) q q', ascii_alike q q' ->
  get_constant (lookup d) q = get_constant (lookup d) q' /\ get_function (lookup d) q = get_function (lookup d) q' /\
  get_unary (lookup d) q = get_unary (lookup d) q' /\ get_binary (lookup d) q = get_binary (lookup d) q'.
Proof.
  intros d q q' H. simpl. assert (G : forall k, km q k = km q' k) by (intros k; apply key_match_alike; [exact H|apply alike_refl]).
  repeat split; apply mget_ext; exact G.
Qed.

Lemma perform_err : forall (x : call V W) d k d', perform E dbg x d = (Err k, d') -> d' = d.
Proof.
  intros x d k d' H. destruct x as [n v|n v|f n|f n|f n]; simpl in H.
  - unfold set_variable in H. destruct (validate dbg n); try congruence. destruct (existsb _ _); congruence.
  - unfold unit_result, add_constant in H. destruct (validate dbg n); simpl in H; try congruence. destruct (existsb _ _); simpl in H; congruence.
  - unfold unit_result, add_function_as in H. destruct (register E dbg (fn_aliases f) f n (d_funs d)) as [[u|k'|] m] eqn:Er; simpl in H; try discriminate.
    apply register_err in Er. subst m. injection H as _ <-. destruct d; reflexivity.
  - unfold unit_result, add_unary_function_as in H. destruct (register E dbg (uf_aliases f) f n (d_unary d)) as [[u|k'|] m] eqn:Er; simpl in H; try discriminate.
    apply register_err in Er. subst m. injection H as _ <-. destruct d; reflexivity.
  - unfold unit_result, add_binary_function_as in H. destruct (register E dbg (bf_aliases f) f n (d_binary d)) as [[u|k'|] m] eqn:Er; simpl in H; try discriminate.
    apply register_err in Er. subst m. injection H as _ <-. destruct d; reflexivity.
Qed.

(** What each call leaves alone, whatever its outcome. *)
Lemma perform_frame : forall (x : call V W) d r d', perform E dbg x d = (r, d') -> d_config d' = d_config d /\
  match x with
  | SetVariable _ _ => d_consts d' = d_consts d /\ d_funs d' = d_funs d /\ d_unary d' = d_unary d /\ d_binary d' = d_binary d
  | AddConstant _ _ => d_vars d' = d_vars d /\ d_funs d' = d_funs d /\ d_unary d' = d_unary d /\ d_binary d' = d_binary d
  | AddFunction _ _ => d_vars d' = d_vars d /\ d_consts d' = d_consts d /\ d_unary d' = d_unary d /\ d_binary d' = d_binary d
  | AddUnary _ _ => d_vars d' = d_vars d /\ d_consts d' = d_consts d /\ d_funs d' = d_funs d /\ d_binary d' = d_binary d
  | AddBinary _ _ => d_vars d' = d_vars d /\ d_consts d' = d_consts d /\ d_funs d' = d_funs d /\ d_unary d' = d_unary d
  end.
Proof.
  intros x d r d' H. destruct x as [n v|n v|f n|f n|f n]; simpl in H.
  - unfold set_variable in H. destruct (validate dbg n); [destruct (existsb _ _)| |]; injection H as <- <-; simpl; auto.
  - unfold unit_result, add_constant in H. destruct (validate dbg n); [destruct (existsb _ _)| |]; simpl in H; injection H as <- <-; simpl; auto.
  - unfold unit_result, add_function_as in H. destruct (register _ _ _ _ _ _). simpl in H. injection H as <- <-. simpl. auto.
  - unfold unit_result, add_unary_function_as in H. destruct (register _ _ _ _ _ _). simpl in H. injection H as <- <-. simpl. auto.
  - unfold unit_result, add_binary_function_as in H. destruct (register _ _ _ _ _ _). simpl in H. injection H as <- <-. simpl. auto.
Qed.

(** ** Histories *)
Variable cf : config.
Notation hist := (history (V := V) (W := W) E dbg cf).

Definition no_clash (d : D) : Prop := forall x v y w, In (x, v) (d_vars d) -> In (y, w) (d_consts d) -> eq_ignore_case E x y = false.

Lemma existsb_key : forall {A} (m : list (str * A)) n, existsb (fun p => eq_ignore_case E (fst p) n) m = false ->
  forall k v, In (k, v) m -> eq_ignore_case E k n = false.
Proof.
  intros A m n H k v Hin. destruct (eq_ignore_case E k n) eqn:Ek; [|reflexivity].
  assert (existsb (fun p => eq_ignore_case E (fst p) n) m = true) by (apply existsb_exists; exists (k, v); auto). congruence.
Qed.

Lemma perform_clash : forall (x : call V W) d r d', no_clash d -> perform E dbg x d = (r, d') -> no_clash d'.
Proof.
  intros x d r d' Hc H. pose proof (perform_frame x d r d' H) as [_ F]. destruct x as [n v|n v|f n|f n|f n].
  - simpl in H. unfold set_variable in H. destruct (validate dbg n); [|injection H as <- <-; exact Hc..].
    destruct (existsb (fun p => eq_ignore_case E (fst p) n) (d_consts d)) eqn:Ee; injection H as <- <-; [exact Hc|].
    intros x v1 y w Hx Hy. simpl in Hx, Hy. apply mput_keys in Hx. destruct Hx as [Hx|[_ Hx]]; [eapply Hc; eauto|].
    pose proof (existsb_key _ _ Ee y w Hy) as Hn. rewrite eq_ic_sym. destruct Hx as [->|[Hx _]]; [exact Hn|].
    apply str_eqb_eq in Hx. subst. exact Hn.
  - simpl in H. unfold unit_result, add_constant in H. destruct (validate dbg n); [|simpl in H; injection H as <- <-; exact Hc..].
    destruct (existsb (fun p => eq_ignore_case E (fst p) n) (d_vars d)) eqn:Ee; simpl in H; injection H as <- <-; [exact Hc|].
    intros x v1 y w Hx Hy. simpl in Hx, Hy. pose proof (existsb_key _ _ Ee x v1 Hx) as Hn. apply mput_keys in Hy.
    destruct Hy as [Hy|[_ [->|[Hy _]]]]; [eapply Hc; eauto|exact Hn|].
    apply key_match_eq in Hy. destruct (eq_ignore_case E x y) eqn:Ex; [|reflexivity].
    rewrite <- Hn. symmetry. apply (eq_ic_trans E x y n Ex). rewrite eq_ic_sym. exact Hy.
  - destruct F as (F1 & F2 & _). intros x v1 y w. rewrite F1, F2. apply Hc.
  - destruct F as (F1 & F2 & _). intros x v1 y w. rewrite F1, F2. apply Hc.
  - destruct F as (F1 & F2 & _). intros x v1 y w. rewrite F1, F2. apply Hc.
Qed.
Lemma history_clash : forall h d, hist h d -> no_clash d.
Proof. intros h d H. induction H as [|h d x r d' H IH Hp]; [intros x v y w []|]. eapply perform_clash; eauto. Qed.

Lemma names_never_clash : forall h d x y, hist h d -> get_variable (lookup d) x <> None -> get_constant (lookup d) y <> None ->
  eq_ignore_case E x y = false.
Proof.
  intros h d x y H Hx Hy. apply history_clash in H. simpl in Hx, Hy.
  destruct (mget str_eqb (d_vars d) x) as [v|] eqn:Ex; [|congruence]. destruct (mget km (d_consts d) y) as [w|] eqn:Ey; [|congruence].
  apply mget_some in Ex. apply mget_some in Ey. destruct Ex as (k1 & I1 & M1), Ey as (k2 & I2 & M2).
  apply str_eqb_eq in M1. subst k1. apply key_match_eq in M2. destruct (eq_ignore_case E x y) eqn:Exy; [|reflexivity].
  rewrite <- (H _ _ _ _ I1 I2). symmetry. apply (eq_ic_trans E x y k2); assumption.
Qed.

(** *** The variables are a map *)
Lemma last_set_app : forall (h : list (call V W * res (option V))) e x, last_set x (h ++ [e]) =
  match last_set x [e] with Some v => Some v | None => last_set x h end.
Proof.
  induction h as [|[c r] h IH]; intros e x; [change ([] ++ [e]) with [e]; destruct (last_set x [e]); reflexivity|].
  rewrite <- app_comm_cons. specialize (IH e x). remember (last_set x [e]) as L eqn:HL. clear HL.
  destruct c as [n v|n v|f n|f n|f n]; cbn [last_set]; try exact IH.
  destruct r as [o|k|]; cbn [last_set]; rewrite IH; destruct L; reflexivity.
Qed.
Lemma set_variable_result : forall n v (d : D) r d', set_variable E dbg n v d = (r, d') ->
  (exists k, r = Err k /\ d' = d) \/
  (r = Ok (get_variable (lookup d) n) /\ forall x, get_variable (lookup d') x = if str_eqb n x then Some v else get_variable (lookup d) x).
Proof.
  intros n v d r d' H. unfold set_variable in H. destruct (validate_cases n) as [Ev|[k Ev]]; rewrite Ev in H.
  - destruct (existsb _ _); injection H as <- <-; [left; eauto|]. right. split; [reflexivity|]. intros x. simpl.
    destruct (str_eqb n x) eqn:Ex.
    + apply str_eqb_eq in Ex. subst x. apply mget_mput_same; [reflexivity|apply str_eqb_refl].
    + apply mget_mput_other; [rewrite str_eqb_sym; exact Ex|]. intros k Hk. apply str_eqb_eq in Hk. subst k. rewrite str_eqb_sym. exact Ex.
  - injection H as <- <-. left. eauto.
Qed.
Lemma history_variables : forall h d x, hist h d -> get_variable (lookup d) x = last_set x h.
Proof.
  intros h d x H. induction H as [|h d c r d' H IH Hp]; [reflexivity|]. rewrite last_set_app.
  destruct c as [n v|n v|f n|f n|f n]; try (pose proof (perform_frame _ _ _ _ Hp) as [_ F]; simpl in *; destruct F as (F1 & _); rewrite F1; exact IH).
  simpl in Hp. apply set_variable_result in Hp. destruct Hp as [(k & -> & ->)|(-> & G)]; [exact IH|].
  rewrite G. cbn [last_set]. destruct (str_eqb n x); [reflexivity|exact IH].
Qed.

(** *** When calls succeed *)
Lemma history_constants : forall h d, hist h d ->
  (forall k v, In (k, v) (d_consts d) -> constant_added k h) /\
  (forall n, constant_added n h -> exists k v, In (k, v) (d_consts d) /\ eq_ignore_case E k n = true).
Proof.
  intros h d H. induction H as [|h d c r d' H [IH1 IH2] Hp].
  - split; [intros k v []|intros n (v & o & [])].
  - assert (Mono : forall n, constant_added n h -> constant_added n (h ++ [(c, r)])).
    { intros n (v & o & Hin). exists v, o. apply in_or_app. auto. }
    assert (Same : d_consts d' = d_consts d -> (forall n v o, c = AddConstant n v -> r <> Ok o) ->
      (forall k v, In (k, v) (d_consts d') -> constant_added k (h ++ [(c, r)])) /\
      (forall n, constant_added n (h ++ [(c, r)]) -> exists k v, In (k, v) (d_consts d') /\ eq_ignore_case E k n = true)).
    { intros Ec Hno. rewrite Ec. split; [intros k v Hin; apply Mono; eauto|]. intros n (v & o & Hin). apply in_app_or in Hin.
      destruct Hin as [Hin|[Hin|[]]]; [apply IH2; exists v, o; exact Hin|]. injection Hin as -> ->. exfalso. eapply Hno; reflexivity. }
    pose proof (perform_frame _ _ _ _ Hp) as [_ F]. destruct c as [n v|n v|f n|f n|f n].
    + apply Same; [apply F|]. intros; discriminate.
    + pose proof Hp as Hp'. simpl in Hp. unfold unit_result, add_constant in Hp. destruct (validate_cases n) as [Ev|[k Ev]]; rewrite Ev in Hp.
      * destruct (existsb _ _); simpl in Hp; injection Hp as <- <-; [apply Same; [reflexivity|intros; discriminate]|]. simpl. split.
        -- intros k w Hin. apply mput_keys in Hin. destruct Hin as [Hin|[_ [->|[_ [u Hu]]]]]; [apply Mono; eauto| |apply Mono; eauto].
           exists v, None. apply in_or_app. right. left. reflexivity.
        -- intros m (w & o & Hin). apply in_app_or in Hin. destruct Hin as [Hin|[Hin|[]]].
           ++ destruct (IH2 m) as (k & u & Hk & Ek); [exists w, o; exact Hin|]. destruct (mput_old_keys km _ n v _ _ Hk) as [u' Hu'].
              exists k, u'. auto.
           ++ injection Hin as -> -> _. destruct (mput_new_key km (d_consts d) m w) as (k & Hk & Ek). exists k, w. split; [exact Hk|].
              destruct Ek as [->|Ek]; [apply eq_ic_refl|]. rewrite eq_ic_sym. eapply key_match_eq; exact Ek.
      * simpl in Hp. injection Hp as <- <-. apply Same; [reflexivity|intros; discriminate].
    + apply Same; [apply F|]. intros; discriminate.
    + apply Same; [apply F|]. intros; discriminate.
    + apply Same; [apply F|]. intros; discriminate.
Qed.
Lemma history_vars : forall h d, hist h d -> forall n, variable_set n h <-> exists v, In (n, v) (d_vars d).
Proof.
  intros h d H. induction H as [|h d c r d' H IH Hp]; intros n0.
  - split; [intros (v & o & [])|intros [v []]].
  - pose proof (perform_frame _ _ _ _ Hp) as [_ F].
    assert (Same : d_vars d' = d_vars d -> (forall n v o, c = SetVariable n v -> r <> Ok o) ->
      (variable_set n0 (h ++ [(c, r)]) <-> exists v, In (n0, v) (d_vars d'))).
    { intros Ec Hno. rewrite Ec, <- IH. split; intros (v & o & Hin); exists v, o; [|apply in_or_app; auto].
      apply in_app_or in Hin. destruct Hin as [Hin|[Hin|[]]]; [exact Hin|]. injection Hin as -> ->. exfalso. eapply Hno; reflexivity. }
    destruct c as [n v|n v|f n|f n|f n]; try (apply Same; [apply F|intros; discriminate]).
    simpl in Hp. unfold set_variable in Hp. destruct (validate_cases n) as [Ev|[k Ev]]; rewrite Ev in Hp.
    + destruct (existsb _ _); injection Hp as <- <-; [apply Same; [reflexivity|intros; discriminate]|]. simpl. split.
      * intros (w & o & Hin). apply in_app_or in Hin. destruct Hin as [Hin|[Hin|[]]].
        -- destruct (proj1 (IH n0)) as [u Hu]; [exists w, o; exact Hin|]. eapply mput_old_keys; exact Hu.
        -- injection Hin as -> -> _. destruct (mput_new_key str_eqb (d_vars d) n0 w) as (k & Hk & Ek). exists w.
           destruct Ek as [->|Ek]; [exact Hk|]. apply str_eqb_eq in Ek. subst k. exact Hk.
      * intros [w Hin]. apply mput_keys in Hin. destruct Hin as [Hin|[-> Hin]].
        -- destruct (proj2 (IH n0)) as (u & o & Hu); [eauto|]. exists u, o. apply in_or_app. auto.
        -- destruct Hin as [->|[Hin _]]; [|apply str_eqb_eq in Hin; subst n0]; eexists v, _; apply in_or_app; right; left; reflexivity.
    + injection Hp as <- <-. apply Same; [reflexivity|intros; discriminate].
Qed.

Lemma set_variable_succeeds : forall h d n v, hist h d ->
  ((exists o, fst (set_variable E dbg n v d) = Ok o) <->
   (dbg = true -> valid_name n) /\ ~ exists m, constant_added m h /\ eq_ignore_case E m n = true).
Proof.
  intros h d n v H. destruct (history_constants h d H) as [H1 H2]. rewrite <- validate_iff. unfold set_variable.
  destruct (validate_cases n) as [Ev|[k Ev]]; rewrite Ev.
  - destruct (existsb (fun p => eq_ignore_case E (fst p) n) (d_consts d)) eqn:Ee; simpl.
    + split; [intros [o Ho]; discriminate|]. intros [_ Hn]. exfalso. apply Hn. apply existsb_exists in Ee.
      destruct Ee as ([k w] & Hin & Hk). exists k. split; [eauto|exact Hk].
    + split; [|intros _; eexists; reflexivity]. intros _. split; [reflexivity|]. intros (m & Hm & Em).
      destruct (H2 m Hm) as (k & w & Hin & Ek). pose proof (existsb_key _ _ Ee k w Hin) as Hf.
      rewrite (eq_ic_trans E k m n Ek Em) in Hf. discriminate.
  - simpl. split; [intros [o Ho]; discriminate|]. intros [Hv _]. discriminate.
Qed.
Lemma add_constant_succeeds : forall h d n v, hist h d ->
  (fst (add_constant E dbg n v d) = Ok tt <->
   (dbg = true -> valid_name n) /\ ~ exists m, variable_set m h /\ eq_ignore_case E m n = true).
Proof.
  intros h d n v H. pose proof (history_vars h d H) as HV. rewrite <- validate_iff. unfold add_constant.
  destruct (validate_cases n) as [Ev|[k Ev]]; rewrite Ev.
  - destruct (existsb (fun p => eq_ignore_case E (fst p) n) (d_vars d)) eqn:Ee; simpl.
    + split; [discriminate|]. intros [_ Hn]. exfalso. apply Hn. apply existsb_exists in Ee.
      destruct Ee as ([k w] & Hin & Hk). exists k. split; [apply HV; eauto|exact Hk].
    + split; [|reflexivity]. intros _. split; [reflexivity|]. intros (m & Hm & Em).
      apply HV in Hm. destruct Hm as [w Hin]. pose proof (existsb_key _ _ Ee m w Hin) as Hf. congruence.
  - simpl. split; [discriminate|]. intros [Hv _]. discriminate.
Qed.
Lemma add_constant_result : forall n v (d : D) d', add_constant E dbg n v d = (Ok tt, d') ->
  (forall n', ascii_alike n' n -> get_constant (lookup d') n' = Some v) /\
  (forall q, eq_ignore_case E q n = false -> get_constant (lookup d') q = get_constant (lookup d) q).
Proof.
  intros n v d d' H. unfold add_constant in H. destruct (validate dbg n); try discriminate.
  destruct (existsb _ _); [discriminate|]. injection H as <-. simpl. split.
  - intros n' Hn. apply mget_mput_same; [intros k; apply key_match_alike; [exact Hn|apply alike_refl]|apply key_match_self; exact Hn].
  - intros q Hq. apply mget_mput_other.
    + destruct (km q n) eqn:Ek; [|reflexivity]. apply key_match_eq in Ek. congruence.
    + intros k Hk. destruct (km q k) eqn:Ek; [|reflexivity]. apply key_match_eq in Hk, Ek.
      rewrite <- Hq. symmetry. apply (eq_ic_trans E q k n Ek). rewrite eq_ic_sym. exact Hk.
Qed.

(** ** Evaluation in changed contexts *)
Lemma respelt_alike : forall (d : D) t t', respelt t t' -> alike (lookup d) (lookup d) t t'.
Proof.
  intros d t t' H. destruct t as [v|x|x|x|x|x|n|s|s|x|], t' as [v'|y|y|y|y|y|n'|s'|s'|y|]; simpl in H; try discriminate;
    try (injection H as <-; constructor; reflexivity); try constructor; try (destruct (lookup_alike d x y H) as (H1 & H2 & H3 & H4)); auto.
Qed.
Lemma eval_respelt : forall (d : D) toks toks' w, Forall2 respelt toks toks' ->
  eval_tokens (lookup d) dbg toks w = eval_tokens (lookup d) dbg toks' w.
Proof.
  intros d toks toks' w H. apply eval_like; auto. clear w. induction H; constructor; auto using respelt_alike.
Qed.

Lemma alike_self : forall c c' : ctx V W, forall t,
  (forall x, t = TVariable x -> get_variable c x = get_variable c' x) -> (forall x, t = TConstant x -> get_constant c x = get_constant c' x) ->
  (forall x, t = TFunction x -> get_function c x = get_function c' x) -> (forall x, t = TBinary x -> get_binary c x = get_binary c' x) ->
  (forall x, t = TUnary x -> get_unary c x = get_unary c' x) -> alike c c' t t.
Proof. intros c c' [v|x|x|x|x|x|n|s|s|x|] H1 H2 H3 H4 H5; constructor; auto. Qed.
Lemma Forall2_self : forall {A} (P : A -> A -> Prop) l, (forall x, In x l -> P x x) -> Forall2 P l l.
Proof. intros A P l. induction l as [|x l IH]; intros H; constructor; [apply H; left; reflexivity|apply IH; intros; apply H; right; assumption]. Qed.

Lemma eval_set_other : forall n v (d : D) r d' toks w, set_variable E dbg n v d = (r, d') -> ~ In (TVariable n) toks ->
  eval_tokens (lookup d') dbg toks w = eval_tokens (lookup d) dbg toks w.
Proof.
  intros n v d r d' toks w H Hn. pose proof (perform_frame (SetVariable n v) d r d' H) as [Fc (F1 & F2 & F3 & F4)].
  apply eval_like; [exact Fc|intros _; simpl; rewrite F4; reflexivity|]. apply Forall2_self. intros t Ht.
  apply alike_self; intros x ->; simpl; try congruence.
  apply set_variable_result in H. destruct H as [(k & -> & ->)|(-> & G)]; [reflexivity|]. specialize (G x). simpl in G. rewrite G.
  rewrite str_neq by congruence. reflexivity.
Qed.

(** Running calls, for examples. *)
Fixpoint replay (xs : list (call V W)) (h : list (call V W * res (option V))) (d : D) : list (call V W * res (option V)) * D :=
  match xs with
  | [] => (h, d)
  | x :: xs' => let (r, d') := perform E dbg x d in replay xs' (h ++ [(x, r)]) d'
  end.
Lemma replay_history : forall xs h d, hist h d -> hist (fst (replay xs h d)) (snd (replay xs h d)).
Proof.
  induction xs as [|x xs IH]; intros h d H; [exact H|]. simpl. destruct (perform E dbg x d) as [r d'] eqn:Ep.
  apply IH. eapply H_call; eassumption.
Qed.

Lemma register_keeps : forall {A} aliases (f : A) name m m' q g, register E dbg aliases f name m = (Ok tt, m') ->
  mget km m q = Some g -> mget km m' q = Some g.
Proof.
  intros A aliases f name m m' q g H Hq. destruct (register_ok _ _ _ _ _ H) as (ext & -> & _). rewrite mget_app, Hq. reflexivity.
Qed.
Lemma register_only : forall {A} aliases (f : A) name m m' q g, register E dbg aliases f name m = (Ok tt, m') ->
  mget km m' q = Some g -> mget km m q = Some g \/ (mget km m q = None /\ g = f /\ exists n, In n (aliases ++ [name]) /\ eq_ignore_case E q n = true).
Proof.
  intros A aliases f name m m' q g H Hq. destruct (register_ok _ _ _ _ _ H) as (ext & -> & Hx & _). rewrite mget_app in Hq.
  destruct (mget km m q) as [g'|] eqn:Eq; [left; exact Hq|]. right. split; [reflexivity|]. apply mget_some in Hq. destruct Hq as (k & Hin & Hk).
  destruct (Hx _ _ Hin) as [-> Hn]. split; [reflexivity|]. exists k. split; [exact Hn|]. eapply key_match_eq; exact Hk.
Qed.

(** Entries found before a successful registration are found after it. *)
Definition only_registers (x : call V W) : bool := match x with SetVariable _ _ | AddConstant _ _ => false | _ => true end.
Lemma perform_keeps : forall (x : call V W) (d : D) o d', perform E dbg x d = (Ok o, d') -> only_registers x = true ->
  d_config d' = d_config d /\
  (forall q, get_variable (lookup d') q = get_variable (lookup d) q) /\ (forall q, get_constant (lookup d') q = get_constant (lookup d) q) /\
  (forall q g, get_function (lookup d) q = Some g -> get_function (lookup d') q = Some g) /\
  (forall q g, get_unary (lookup d) q = Some g -> get_unary (lookup d') q = Some g) /\
  (forall q g, get_binary (lookup d) q = Some g -> get_binary (lookup d') q = Some g).
Proof.
  intros x d o d' H Ho. pose proof (perform_frame x d (Ok o) d' H) as [Fc F]. split; [exact Fc|].
  destruct x as [n v|n v|f n|f n|f n]; try discriminate Ho; destruct F as (F1 & F2 & F3 & F4); simpl; rewrite ?F1, ?F2, ?F3, ?F4;
    repeat (split; [auto; fail|]); repeat split; auto; simpl in H;
    unfold unit_result, add_function_as, add_unary_function_as, add_binary_function_as in H; intros q g;
    match type of H with context [register ?a ?b ?c ?e ?f' ?g'] => destruct (register a b c e f' g') as [[[]|k|] m] eqn:Er; simpl in H; try discriminate end;
    injection H as _ <-; simpl; intros Hq; eapply register_keeps; eauto.
Qed.
Lemma eval_after_register : forall (x : call V W) (d : D) o d' toks w, perform E dbg x d = (Ok o, d') -> only_registers x = true ->
  Forall (meaningful (lookup d)) toks -> (implicit_mul (d_config d) = true -> get_binary (lookup d) times <> None) ->
  eval_tokens (lookup d') dbg toks w = eval_tokens (lookup d) dbg toks w.
Proof.
  intros x d o d' toks w H Ho Hm Hs. destruct (perform_keeps x d o d' H Ho) as (K1 & K2 & K3 & K4 & K5 & K6).
  symmetry. apply eval_like; [simpl; congruence| |].
  - intros Hi. specialize (Hs Hi). change star with times. destruct (get_binary (lookup d) times) as [g|] eqn:Eg; [|congruence].
    symmetry. apply K6. exact Eg.
  - apply Forall2_self. intros t Ht. rewrite Forall_forall in Hm. specialize (Hm t Ht).
    apply alike_self; intros y ->; simpl in Hm; try destruct Hm as [g Hg]; symmetry; auto.
    + rewrite (K4 _ _ Hg). symmetry. exact Hg.
    + rewrite (K6 _ _ Hg). symmetry. exact Hg.
    + rewrite (K5 _ _ Hg). symmetry. exact Hg.
Qed.

End Default.
