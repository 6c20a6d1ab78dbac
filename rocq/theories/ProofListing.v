(** * Proofs for C101 *)
From Coq Require Import List NArith Bool Permutation.
From Verif Require Import ModelBase ModelContext ModelText ModelDefault SpecText ProofText ProofDefault SpecListing.
Import ListNotations.

Section Listing.
Variable E : env.
Variable dbg : bool.
Notation km := (key_match E).

Lemma km_alike : forall q k, ascii_string q -> ascii_string k -> (km q k = true <-> ascii_alike q k).
Proof.
  intros q k Q K. split; [|apply key_match_self]. intros H. apply key_match_eq in H. exact (ascii_eq_ic E q k Q K H).
Qed.
Lemma km_not : forall q k, ascii_string q -> ascii_string k -> (km q k = false <-> ~ ascii_alike q k).
Proof. intros q k Q K. rewrite <- (km_alike q k Q K). destruct (km q k); intuition congruence. Qed.
Lemma alike_dec : forall a b, {ascii_alike a b} + {~ ascii_alike a b}.
Proof.
  intros a b. destruct (str_eqb (map to_ascii_lowercase a) (map to_ascii_lowercase b)) eqn:H.
  - left. apply fold_alike. apply str_eqb_eq. exact H.
  - right. intros X. apply fold_alike in X. rewrite X, str_eqb_refl in H. discriminate.
Qed.

(** ** Tables *)
Section Table.
Context {A : Type}.
Notation table := (list (str * A)).
Notation get := (mget km (A := A)).
Definition good (m : table) : Prop := Forall (fun p => ascii_string (fst p)) m /\ ForallOrdPairs (fun p q => ~ ascii_alike (fst p) (fst q)) m.

Lemma good_key : forall m k v, good m -> In (k, v) m -> ascii_string k.
Proof. intros m k v [F _] I. rewrite Forall_forall in F. exact (F _ I). Qed.
Lemma free : forall m q, ascii_string q -> good m -> (get m q = None <-> forall k v, In (k, v) m -> ~ ascii_alike q k).
Proof.
  intros m q Q G. rewrite mget_none, Forall_forall. split.
  - intros H k v I. apply (km_not q k Q (good_key m k v G I)). exact (H _ I).
  - intros H [k v] I. apply (km_not q k Q (good_key m k v G I)). exact (H _ _ I).
Qed.
Lemma good_app : forall m k v, good m -> ascii_string k -> (forall k' v', In (k', v') m -> ~ ascii_alike k k') -> good (m ++ [(k, v)]).
Proof.
  intros m k v [F O] K H. split; [apply Forall_app; split; [exact F|constructor; [exact K|constructor]]|].
  induction m as [|[k0 v0] m IH]; [repeat constructor|]. inversion F; subst. inversion O; subst. cbn [app]. constructor.
  - apply Forall_app. split; [assumption|]. constructor; [|constructor]. cbn [fst]. intros X. apply (H k0 v0); [left; reflexivity|]. apply alike_sym. exact X.
  - apply IH; [assumption..|]. intros k' v' I. apply (H k' v'). right. exact I.
Qed.
Lemma good_put : forall m k v, good m -> ascii_string k -> good (mput km m k v).
Proof.
  intros m k v G K. destruct (get m k) as [u|] eqn:X.
  - assert (Y : map fst (mput km m k v) = map fst m).
    { clear G. revert X. induction m as [|[k0 v0] m IH]; [discriminate|]. rewrite mget_cons. cbn [mput]. destruct (km k k0); [reflexivity|]. intros X. cbn [map fst]. rewrite (IH X). reflexivity. }
    assert (T : forall m', map fst m' = map fst m -> good m').
    { intros m'. clear X Y. destruct G as [F O]. revert m F O. induction m' as [|[k0 v0] m' IH]; intros [|[k1 v1] m] F O Y; cbn in Y; try discriminate; [split; constructor|].
      injection Y as -> Y. inversion F; subst. inversion O; subst. destruct (IH m) as [F' O']; [assumption..|]. split; constructor; try assumption.
      rewrite Forall_forall in *. intros [k' v'] I. assert (I' : In k' (map fst m)) by (rewrite <- Y; exact (in_map fst _ _ I)). apply in_map_iff in I'. destruct I' as ([k2 v2] & <- & I'). apply (H3 _ I'). }
    exact (T _ Y).
  - rewrite (mput_fresh _ _ _ _ X). apply good_app; [exact G|exact K|]. apply (free m k K G). exact X.
Qed.
Lemma good_get : forall m k v q, good m -> In (k, v) m -> ascii_alike q k -> get m q = Some v.
Proof.
  intros m k v q [F O] I Q. induction m as [|[k0 v0] m IH]; [destruct I|]. inversion F; subst. inversion O; subst. rewrite mget_cons. destruct I as [I|I].
  - injection I as -> ->. rewrite (key_match_self E q k Q). reflexivity.
  - destruct (km q k0) eqn:X; [|apply IH; assumption]. exfalso. rewrite Forall_forall in H3. apply (H3 _ I). cbn [fst]. apply alike_sym. apply (alike_trans k q k0); [apply alike_sym; exact Q|].
    assert (K : ascii_string k) by (rewrite Forall_forall in H2; exact (H2 _ I)). assert (X' : km k k0 = true) by (rewrite <- X; apply key_match_alike; [apply alike_sym; exact Q|apply alike_refl]).
    apply (km_alike k k0 K H1) in X'. apply (alike_trans q k k0); assumption.
Qed.
Lemma good_one : forall m q v, good m -> ascii_string q -> get m q = Some v -> exists m1 k m2, m = m1 ++ (k, v) :: m2 /\ ascii_alike q k /\ Forall (fun p => ~ ascii_alike q (fst p)) (m1 ++ m2).
Proof.
  intros m q v G Q H. destruct (mget_some _ _ _ _ H) as (k & I & X). apply (km_alike q k Q (good_key m k v G I)) in X. destruct (in_split _ _ I) as (m1 & m2 & Y). exists m1, k, m2. split; [exact Y|]. split; [exact X|].
  destruct G as [_ O]. subst m. clear - O X. apply Forall_app. split.
  - induction m1 as [|[k0 v0] m1 IH]; [constructor|]. cbn [app] in O. inversion O; subst. constructor; [|apply IH; assumption]. cbn [fst]. intros Z. rewrite Forall_forall in H1. apply (H1 (k, v)); [apply in_elt|].
    cbn [fst]. apply (alike_trans k0 q k); [apply alike_sym; exact Z|exact X].
  - induction m1 as [|[k0 v0] m1 IH]; cbn [app] in O; inversion O; subst; [|apply IH; assumption]. eapply Forall_impl; [|exact H1]. intros [k1 v1] Z Z'. cbn [fst] in *. apply Z. apply (alike_trans k q k1); [apply alike_sym; exact X|exact Z'].
Qed.
Lemma in_put : forall m k v k' v', good m -> ascii_string k -> (In (k', v') (mput km m k v) <->
  In (k', v') m /\ ~ ascii_alike k k' \/ v' = v /\ ascii_alike k k' /\ (exists u, In (k', u) m) \/ v' = v /\ k' = k /\ forall k0 v0, In (k0, v0) m -> ~ ascii_alike k k0).
Proof.
  intros m k v k' v' G K. induction m as [|[k0 v0] m IH].
  - cbn. split.
    + intros [X|[]]. injection X as <- <-. right. right. repeat split. intros ? ? [].
    + intros [[[] _]|[(_ & _ & u & [])|(-> & -> & _)]]. left. reflexivity.
  - destruct G as [F O]. inversion F; subst. inversion O; subst. specialize (IH (conj H2 H4)). cbn [mput]. destruct (km k k0) eqn:X.
    + apply (km_alike k k0 K H1) in X. split.
      * intros [Y|Y]; [injection Y as <- <-; right; left; repeat split; [exact X|exists v0; left; reflexivity]|]. left. split; [right; exact Y|]. intros Z. rewrite Forall_forall in H3. apply (H3 _ Y). cbn [fst]. apply (alike_trans k0 k k'); [apply alike_sym; exact X|exact Z].
      * intros [[[Y|Y] Z]|[(-> & Z & u & [Y|Y])|(_ & _ & Z)]].
        -- injection Y as -> ->. contradiction.
        -- right. exact Y.
        -- injection Y as -> ->. left. reflexivity.
        -- exfalso. rewrite Forall_forall in H3. apply (H3 _ Y). cbn [fst]. apply (alike_trans k0 k k'); [apply alike_sym; exact X|exact Z].
        -- exfalso. apply (Z k0 v0); [left; reflexivity|exact X].
    + apply (km_not k k0 K H1) in X. split.
      * intros [Y|Y]; [injection Y as -> ->; left; split; [left; reflexivity|exact X]|]. apply IH in Y. destruct Y as [[Y Z]|[(-> & Z & u & Y)|(-> & -> & Z)]].
        -- left. split; [right; exact Y|exact Z].
        -- right. left. repeat split; [exact Z|]. exists u. right. exact Y.
        -- right. right. repeat split. intros k1 v1 [Y|Y]; [injection Y as -> ->; exact X|apply (Z k1 v1 Y)].
      * intros [[[Y|Y] Z]|[(-> & Z & u & [Y|Y])|(-> & -> & Z)]].
        -- left. exact Y.
        -- right. apply IH. left. auto.
        -- injection Y as -> ->. contradiction.
        -- right. apply IH. right. left. repeat split; [exact Z|]. exists u. exact Y.
        -- right. apply IH. right. right. repeat split. intros k1 v1 Y. apply (Z k1 v1). right. exact Y.
Qed.
Lemma good_aliases : forall aliases f m r m', good m -> Forall ascii_string aliases -> insert_aliases E aliases f m = (r, m') -> good m'.
Proof.
  induction aliases as [|a aliases IH]; intros f m r m' G F H; cbn in H; [injection H as _ <-; exact G|]. inversion F; subst.
  destruct (is_some (get m a)); [injection H as _ <-; exact G|]. apply (IH _ _ _ _ (good_put m a f G H2) H3 H).
Qed.
Lemma good_register : forall aliases f n m r m', good m -> ascii_string n -> Forall ascii_string aliases -> register E dbg aliases f n m = (r, m') -> good m'.
Proof.
  intros aliases f n m r m' G N F H. unfold register in H. destruct (validate dbg n); [|injection H as _ <-; exact G..]. destruct (is_some (get m n)); [injection H as _ <-; exact G|].
  destruct (insert_aliases E aliases f m) as [[u|k|] m1] eqn:I; injection H as _ <-; pose proof (good_aliases _ _ _ _ _ G F I) as G1; [apply good_put; assumption|exact G1..].
Qed.
Lemma register_in : forall aliases f n m m', good m -> ascii_string n -> Forall ascii_string aliases -> register E dbg aliases f n m = (Ok tt, m') ->
  forall k g, In (k, g) m' <-> In (k, g) m \/ g = f /\ entered_as k aliases n.
Proof.
  intros aliases f n m m' G N F H k g. unfold register in H. destruct (validate dbg n) as [[]|?|]; try discriminate. destruct (get m n) eqn:X; cbn in H; [discriminate|].
  destruct (insert_aliases E aliases f m) as [[[]|kk|] m1] eqn:I; try discriminate. injection H as <-. pose proof (good_aliases _ _ _ _ _ G F I) as G1.
  apply insert_aliases_ok in I. subst m1. pose proof (proj1 (free m n N G) X) as X'. clear X. rename X' into X. rewrite (in_put _ n f k g G1 N), !in_app_iff, in_map_iff. unfold entered_as. split.
  - intros [[[Y|(a0 & Y & Z)] _]|[(-> & Y & u & Z)|(-> & -> & Y)]].
    + left. exact Y.
    + injection Y as -> ->. right. auto.
    + apply in_app_iff in Z. destruct Z as [Z|Z]; [exfalso; exact (X k u Z Y)|]. apply in_map_iff in Z. destruct Z as (a & Z & Z'). injection Z as -> ->. right. auto.
    + right. split; [reflexivity|]. right. split; [reflexivity|]. apply Forall_forall. intros a Z. apply (Y a f). apply in_or_app. right. apply in_map_iff. exists a. auto.
  - intros [Y|(-> & [Y|(-> & Y)])].
    + left. split; [left; exact Y|]. apply (X k g Y).
    + destruct (alike_dec n k) as [Z|Z].
      * right. left. repeat split; [exact Z|]. exists f. apply in_or_app. right. apply in_map_iff. exists k. auto.
      * left. split; [|exact Z]. right. exists k. auto.
    + right. right. repeat split. intros k0 v0 Z. apply in_app_iff in Z. destruct Z as [Z|Z]; [apply (X k0 v0 Z)|]. apply in_map_iff in Z. destruct Z as (a & Z & Z'). injection Z as <- <-. rewrite Forall_forall in Y. apply (Y a Z').
Qed.
End Table.

(** ** Histories *)
Section History.
Context {V W : Type}.
Variable cf : config.
Notation hist := (history (V := V) (W := W) E dbg cf).
Notation log := (list (call V W * res (option V))).

Lemma split_last : forall (h : log) e, all_ascii_names (h ++ [e]) -> all_ascii_names h /\ ascii_names (fst e).
Proof. intros h [x r] H. split; [intros y s I; apply (H y s), in_or_app; auto|]. apply (H x r), in_or_app. right. left. reflexivity. Qed.

Section Kind.
Context {A : Type}.
Variable tbl : dctx V W -> list (str * A).
Variable sel : call V W -> option (list str * A * str).
Hypothesis empty : tbl (with_config cf) = [].
Hypothesis step : forall x d r d', perform E dbg x d = (r, d') ->
  match sel x with
  | Some (al, f, n) => exists rr, register E dbg al f n (tbl d) = (rr, tbl d') /\ r = match rr with Ok _ => Ok None | Err k => Err k | Panic => Panic end
  | None => tbl d' = tbl d
  end.
Hypothesis ascii : forall x al f n, sel x = Some (al, f, n) -> ascii_names x -> ascii_string n /\ Forall ascii_string al.
Lemma history_good : forall h d, hist h d -> all_ascii_names h -> good (tbl d).
Proof.
  intros h d H. induction H as [|h d x r d' H IH P]; intros Q; [rewrite empty; split; constructor|]. apply split_last in Q. destruct Q as [Q1 Q2]. specialize (IH Q1). apply step in P.
  destruct (sel x) as [[[al f] n]|] eqn:S; [|rewrite P; exact IH]. destruct P as (rr & P & _). destruct (ascii x al f n S Q2) as [B C]. exact (good_register _ _ _ _ _ _ IH B C P).
Qed.
Lemma history_in : forall h d, hist h d -> all_ascii_names h -> no_panic h ->
  forall k g, In (k, g) (tbl d) <-> exists x o al n, In (x, Ok o) h /\ sel x = Some (al, g, n) /\ entered_as k al n.
Proof.
  intros h d H. induction H as [|h d x r d' H IH P]; intros Q NP k g.
  - rewrite empty. split; [intros []|]. intros (x & o & al & n & [] & _).
  - pose proof (split_last _ _ Q) as [Q1 Q2]. cbn [fst] in Q2. assert (NP1 : no_panic h) by (intros y I; apply (NP y), in_or_app; auto). specialize (IH Q1 NP1 k g).
    pose proof (history_good h d H Q1) as G. pose proof (step _ _ _ _ P) as T.
    assert (Old : (exists y o al n, In (y, Ok o) (h ++ [(x, r)]) /\ sel y = Some (al, g, n) /\ entered_as k al n) <->
      In (k, g) (tbl d) \/ exists o al n, r = Ok o /\ sel x = Some (al, g, n) /\ entered_as k al n).
    { rewrite IH. split.
      - intros (y & o & al & n & I & S & X). apply in_app_iff in I. destruct I as [I|[I|[]]]; [left; exists y, o, al, n; auto|]. injection I as -> ->. right. exists o, al, n. auto.
      - intros [(y & o & al & n & I & S & X)|(o & al & n & -> & S & X)]; [exists y, o, al, n; split; [apply in_or_app; auto|auto]|]. exists x, o, al, n. split; [apply in_or_app; right; left; reflexivity|auto]. }
    rewrite Old. destruct (sel x) as [[[al f] n]|] eqn:S.
    + destruct T as (rr & T & ->). destruct (ascii x al f n S Q2) as [B C]. destruct rr as [[]|kk|].
      * rewrite (register_in _ _ _ _ _ G B C T). split; (intros [X|X]; [left; exact X|right]).
        -- destruct X as [-> X]. exists None, al, n. auto.
        -- destruct X as (o & al' & n' & _ & X & Y). injection X as <- <- <-. auto.
      * apply register_err in T. rewrite T. split; [auto|]. intros [X|(o & al' & n' & X & _)]; [exact X|discriminate].
      * exfalso. apply (NP x). apply in_or_app. right. left. reflexivity.
    + rewrite T. split; [auto|]. intros [X|(o & al' & n' & _ & X & _)]; [exact X|discriminate].
Qed.
End Kind.

Definition sel_fun (x : call V W) := match x with AddFunction f n => Some (fn_aliases f, f, n) | _ => None end.
Definition sel_unary (x : call V W) := match x with AddUnary f n => Some (uf_aliases f, f, n) | _ => None end.
Definition sel_binary (x : call V W) := match x with AddBinary f n => Some (bf_aliases f, f, n) | _ => None end.
Lemma step_fun : forall x d r d', perform E dbg x d = (r, d') ->
  match sel_fun x with Some (al, f, n) => exists rr, register E dbg al f n (d_funs d) = (rr, d_funs d') /\ r = match rr with Ok _ => Ok None | Err k => Err k | Panic => Panic end | None => d_funs d' = d_funs d end.
Proof.
  intros x d r d' P. destruct x as [n v|n v|f n|f n|f n]; cbn [sel_fun]; try (apply perform_frame in P; apply P). cbn [perform] in P. unfold add_function_as in P.
  destruct (register E dbg (fn_aliases f) f n (d_funs d)) as [rr m] eqn:R. unfold unit_result in P. cbn [fst snd] in P. injection P as <- <-. exists rr. auto.
Qed.
Lemma step_unary : forall x d r d', perform E dbg x d = (r, d') ->
  match sel_unary x with Some (al, f, n) => exists rr, register E dbg al f n (d_unary d) = (rr, d_unary d') /\ r = match rr with Ok _ => Ok None | Err k => Err k | Panic => Panic end | None => d_unary d' = d_unary d end.
Proof.
  intros x d r d' P. destruct x as [n v|n v|f n|f n|f n]; cbn [sel_unary]; try (apply perform_frame in P; apply P). cbn [perform] in P. unfold add_unary_function_as in P.
  destruct (register E dbg (uf_aliases f) f n (d_unary d)) as [rr m] eqn:R. unfold unit_result in P. cbn [fst snd] in P. injection P as <- <-. exists rr. auto.
Qed.
Lemma step_binary : forall x d r d', perform E dbg x d = (r, d') ->
  match sel_binary x with Some (al, f, n) => exists rr, register E dbg al f n (d_binary d) = (rr, d_binary d') /\ r = match rr with Ok _ => Ok None | Err k => Err k | Panic => Panic end | None => d_binary d' = d_binary d end.
Proof.
  intros x d r d' P. destruct x as [n v|n v|f n|f n|f n]; cbn [sel_binary]; try (apply perform_frame in P; apply P). cbn [perform] in P. unfold add_binary_function_as in P.
  destruct (register E dbg (bf_aliases f) f n (d_binary d)) as [rr m] eqn:R. unfold unit_result in P. cbn [fst snd] in P. injection P as <- <-. exists rr. auto.
Qed.
Lemma good_funs : forall h d, hist h d -> all_ascii_names h -> good (d_funs d).
Proof. apply (history_good d_funs sel_fun eq_refl step_fun). intros [n v|n v|f n|f n|f n] al g m S Q; try discriminate. injection S as <- <- <-. exact Q. Qed.
Lemma good_unary : forall h d, hist h d -> all_ascii_names h -> good (d_unary d).
Proof. apply (history_good d_unary sel_unary eq_refl step_unary). intros [n v|n v|f n|f n|f n] al g m S Q; try discriminate. injection S as <- <- <-. exact Q. Qed.
Lemma good_binary : forall h d, hist h d -> all_ascii_names h -> good (d_binary d).
Proof. apply (history_good d_binary sel_binary eq_refl step_binary). intros [n v|n v|f n|f n|f n] al g m S Q; try discriminate. injection S as <- <- <-. exact Q. Qed.
Lemma in_funs : forall h d, hist h d -> all_ascii_names h -> no_panic h -> forall k g, In (k, g) (d_funs d) <-> function_entered h k g.
Proof.
  intros h d H Q NP k g. rewrite (history_in d_funs sel_fun eq_refl step_fun); [|intros [n v|n v|f n|f n|f n] al g' m S Q'; try discriminate; injection S as <- <- <-; exact Q'|exact H|exact Q|exact NP]. unfold function_entered. split.
  - intros (x & o & al & n & I & S & X). destruct x as [? ?|? ?|f m|f m|f m]; try discriminate. injection S as <- <- <-. exists m, o. auto.
  - intros (n & o & I & X). exists (AddFunction g n), o, (fn_aliases g), n. auto.
Qed.
Lemma in_unary : forall h d, hist h d -> all_ascii_names h -> no_panic h -> forall k g, In (k, g) (d_unary d) <-> unary_entered h k g.
Proof.
  intros h d H Q NP k g. rewrite (history_in d_unary sel_unary eq_refl step_unary); [|intros [n v|n v|f n|f n|f n] al g' m S Q'; try discriminate; injection S as <- <- <-; exact Q'|exact H|exact Q|exact NP]. unfold unary_entered. split.
  - intros (x & o & al & n & I & S & X). destruct x as [? ?|? ?|f m|f m|f m]; try discriminate. injection S as <- <- <-. exists m, o. auto.
  - intros (n & o & I & X). exists (AddUnary g n), o, (uf_aliases g), n. auto.
Qed.
Lemma in_binary : forall h d, hist h d -> all_ascii_names h -> no_panic h -> forall k g, In (k, g) (d_binary d) <-> binary_entered h k g.
Proof.
  intros h d H Q NP k g. rewrite (history_in d_binary sel_binary eq_refl step_binary); [|intros [n v|n v|f n|f n|f n] al g' m S Q'; try discriminate; injection S as <- <- <-; exact Q'|exact H|exact Q|exact NP]. unfold binary_entered. split.
  - intros (x & o & al & n & I & S & X). destruct x as [? ?|? ?|f m|f m|f m]; try discriminate. injection S as <- <- <-. exists m, o. auto.
  - intros (n & o & I & X). exists (AddBinary g n), o, (bf_aliases g), n. auto.
Qed.

(** *** Constants *)
Lemma step_consts : forall (x : call V W) d r d', perform E dbg x d = (r, d') ->
  (exists n v, x = AddConstant n v /\ r = Ok None /\ d_consts d' = mput km (d_consts d) n v) \/ ((forall n v o, x = AddConstant n v -> r <> Ok o) /\ d_consts d' = d_consts d).
Proof.
  intros x d r d' P. pose proof (perform_frame _ _ _ _ _ _ P) as [_ F]. destruct x as [n v|n v|f n|f n|f n]; try (right; split; [intros; discriminate|apply F]).
  cbn [perform] in P. unfold unit_result, add_constant in P. destruct (validate_cases dbg n) as [X|[k X]]; rewrite X in P.
  - destruct (existsb _ _); cbn in P; injection P as <- <-; [right; split; [intros; discriminate|reflexivity]|]. left. exists n, v. auto.
  - cbn in P. injection P as <- <-. right. split; [intros; discriminate|reflexivity].
Qed.
Lemma good_consts : forall h d, hist h d -> all_ascii_names h -> good (d_consts d).
Proof.
  intros h d H. induction H as [|h d x r d' H IH P]; intros Q; [split; constructor|]. apply split_last in Q. destruct Q as [Q1 Q2]. specialize (IH Q1). apply step_consts in P.
  destruct P as [(n & v & -> & _ & ->)|[_ ->]]; [|exact IH]. apply good_put; [exact IH|exact Q2].
Qed.
Definition adds (e : call V W * res (option V)) (n : str) (v : V) : Prop := exists o, e = (AddConstant n v, Ok o).
Lemma first_last : forall (h : log) e n, first_spelling n (h ++ [e]) <-> first_spelling n h \/ (exists v, adds e n v) /\ forall m v' o', In (AddConstant m v', Ok o') h -> ~ ascii_alike m n.
Proof.
  intros h e n. split.
  - intros (h1 & v & o & h2 & X & Y). destruct (rev h2) as [|e' h2'] eqn:R.
    + assert (h2 = []) by (rewrite <- (rev_involutive h2), R; reflexivity). subst h2. apply app_inj_tail in X. destruct X as [-> ->]. right. split; [exists v, o; reflexivity|exact Y].
    + assert (Z : h2 = rev h2' ++ [e']) by (rewrite <- (rev_involutive h2), R; reflexivity). subst h2. rewrite app_comm_cons, app_assoc in X. apply app_inj_tail in X. destruct X as [-> ->]. left. exists h1, v, o, (rev h2'). auto.
  - intros [(h1 & v & o & h2 & -> & Y)|[(v & o & ->) Y]].
    + exists h1, v, o, (h2 ++ [e]). split; [rewrite <- app_assoc; reflexivity|exact Y].
    + exists h, v, o, []. auto.
Qed.
Lemma last_last : forall (h : log) e n v, last_value n v (h ++ [e]) <-> (exists m, adds e m v /\ ascii_alike m n) \/ last_value n v h /\ forall m v', adds e m v' -> ~ ascii_alike m n.
Proof.
  intros h e n v. split.
  - intros (h1 & m & o & h2 & X & Y & Z). destruct (rev h2) as [|e' h2'] eqn:R.
    + assert (h2 = []) by (rewrite <- (rev_involutive h2), R; reflexivity). subst h2. apply app_inj_tail in X. destruct X as [-> ->]. left. exists m. split; [exists o; reflexivity|exact Y].
    + assert (T : h2 = rev h2' ++ [e']) by (rewrite <- (rev_involutive h2), R; reflexivity). subst h2. rewrite app_comm_cons, app_assoc in X. apply app_inj_tail in X. destruct X as [-> ->]. right. split.
      * exists h1, m, o, (rev h2'). split; [reflexivity|]. split; [exact Y|]. intros m' v' o' I. apply (Z m' v' o'). apply in_or_app. auto.
      * intros m' v' (o' & ->). apply (Z m' v' o'). apply in_or_app. right. left. reflexivity.
  - intros [(m & (o & ->) & Y)|[(h1 & m & o & h2 & -> & Y & Z) T]].
    + exists h, m, o, []. split; [reflexivity|]. split; [exact Y|]. intros ? ? ? [].
    + exists h1, m, o, (h2 ++ [e]). split; [rewrite <- app_assoc; reflexivity|]. split; [exact Y|]. intros m' v' o' I. apply in_app_iff in I. destruct I as [I|[I|[]]]; [apply (Z _ _ _ I)|]. apply (T m' v'). exists o'. exact I.
Qed.
Lemma in_consts : forall h d, hist h d -> all_ascii_names h ->
  (forall k v, In (k, v) (d_consts d) <-> first_spelling k h /\ last_value k v h) /\
  forall n v o, In (AddConstant n v, Ok o) h -> exists k u, In (k, u) (d_consts d) /\ ascii_alike n k.
Proof.
  intros h d H. induction H as [|h d x r d' H IH P]; intros Q.
  - split.
    + intros k v. split; [intros []|]. intros [(h1 & v' & o & h2 & X & _) _]. destruct h1; discriminate.
    + intros n v o [].
  - pose proof (split_last _ _ Q) as [Q1 Q2]. cbn [fst] in Q2. specialize (IH Q1). destruct IH as [IH1 IH2]. pose proof (good_consts h d H Q1) as G. apply step_consts in P.
    destruct P as [(n & v & -> & -> & ->)|[N ->]].
    + cbn [ascii_names] in Q2. split.
      * intros k u. rewrite (in_put _ n v k u G Q2), first_last, last_last. split.
        -- intros [[X Y]|[(-> & X & w & Y)|(-> & -> & X)]].
           ++ apply IH1 in X. destruct X as [X1 X2]. split; [left; exact X1|]. right. split; [exact X2|]. intros m v' (o & Z). injection Z as <- <- _. exact Y.
           ++ apply IH1 in Y. destruct Y as [Y1 Y2]. split; [left; exact Y1|]. left. exists n. split; [exists None; reflexivity|exact X].
           ++ split.
              ** right. split; [exists v, None; reflexivity|]. intros m v' o' I Z. destruct (IH2 m v' o' I) as (k' & w & I' & Z'). apply (X k' w I'). apply (alike_trans n m k'); [apply alike_sym; exact Z|exact Z'].
              ** left. exists n. split; [exists None; reflexivity|apply alike_refl].
        -- intros [[X|[(w & o & Z) X]] [(m & (o' & Y) & Y')|[Y Y']]].
           ++ injection Y as <- <- _. right. left. split; [reflexivity|]. split; [exact Y'|]. destruct X as (h1 & w & o & h2 & X & X'). destruct (IH2 k w o) as (k' & w' & I & Z); [rewrite X; apply in_elt|].
              assert (I2 := I). apply IH1 in I2. destruct I2 as [(h1' & w2 & o2 & h2' & X2 & X2') L].
              assert (k' = k); [|subst k'; exists w'; exact I].
              { subst h. clear - X2 X2' X' Z. revert h1' X2 X2'. induction h1 as [|e h1 IHh]; intros [|e' h1'] X2 X2'.
                - injection X2 as -> _ _ _. reflexivity.
                - injection X2 as <- _. exfalso. apply (X2' k w o); [left; reflexivity|exact Z].
                - injection X2 as -> _. exfalso. apply (X' k' w2 o2); [left; reflexivity|apply alike_sym; exact Z].
                - injection X2 as -> X2. apply (IHh (fun m v' o' I => X' m v' o' (or_intror I)) h1' X2 (fun m v' o' I => X2' m v' o' (or_intror I))). }
           ++ left. split; [apply IH1; auto|]. apply (Y' n v). exists None. reflexivity.
           ++ injection Y as <- <- _. injection Z as <- _ _. right. right. repeat split. intros k0 v0 I Z. apply IH1 in I. destruct I as [(h1 & w2 & o2 & h2 & X2 & _) _]. apply (X k0 w2 o2); [rewrite X2; apply in_elt|]. apply alike_sym. exact Z.
           ++ exfalso. injection Z as <- _ _. apply (Y' n v); [exists None; reflexivity|apply alike_refl].
      * intros m w o I. apply in_app_iff in I. destruct I as [I|[I|[]]].
        -- destruct (IH2 m w o I) as (k & u & X & Y). destruct (mput_old_keys km _ n v _ _ X) as [u' X']. exists k, u'. auto.
        -- injection I as <- <- _. destruct (mput_new_key km (d_consts d) n v) as (k & X & Y). exists k, v. split; [exact X|]. destruct Y as [-> |Y]; [apply alike_refl|]. apply (km_alike n k Q2); [|exact Y].
           apply (good_key _ _ _ (good_put _ n v G Q2) X).
    + assert (NA : forall m v', ~ adds (x, r) m v') by (intros m v' (o & Z); injection Z as -> ->; exact (N m v' o eq_refl eq_refl)). split.
      * intros k v. rewrite IH1, first_last, last_last. split.
        -- intros [X Y]. split; [left; exact X|]. right. split; [exact Y|]. intros m v' Z. exfalso. exact (NA m v' Z).
        -- intros [[X|[(w & X) _]] [(m & Y & _)|[Y _]]]; try (exfalso; eapply NA; eassumption). auto.
      * intros n v o I. apply in_app_iff in I. destruct I as [I|[I|[]]]; [exact (IH2 n v o I)|]. injection I as -> ->. exfalso. exact (N n v o eq_refl eq_refl).
Qed.
End History.
End Listing.
