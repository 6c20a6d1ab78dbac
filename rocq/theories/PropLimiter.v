(** * C84: the rate limit *)
From Coq Require Import List NArith Bool Arith Lia String.
From Verif Require Import ModelBase ModelText ModelServer SpecServer ProofServer PropServer ModelLimiter SpecLimiter.
Import ListNotations.

Lemma entry_same : forall s id v, entry ((id, v) :: s) id = Some v.
Proof. intros s id v. cbn. rewrite str_eqb_refl. reflexivity. Qed.
Lemma entry_other : forall s id id' v, id <> id' -> entry ((id', v) :: s) id = entry s id.
Proof. intros s id id' v H. cbn. destruct (str_eqb id id') eqn:E; [apply str_eqb_eq in E; congruence|reflexivity]. Qed.
Lemma admit_other : forall s id id' now, id <> id' -> entry (snd (admit s id' now)) id = entry s id.
Proof.
  intros s id id' now H. unfold admit. destruct (entry s id') as [[l e]|]; [|apply entry_other; exact H].
  destruct (now <? e)%N; [|apply entry_other; exact H]. destruct l; [reflexivity|apply entry_other; exact H].
Qed.

(** What [admit] does to the entry of the identifier it is asked about. *)
Definition limit_of (o : option (nat * N)) (now : N) : bool * (nat * N) :=
  match o with
  | Some (l, e) => if (now <? e)%N then match l with O => (false, (O, e)) | S l' => (true, (l', e)) end else (true, (pred MAX_REQUESTS, (now + TIME_BETWEEN_REQUESTS)%N))
  | None => (true, (pred MAX_REQUESTS, (now + TIME_BETWEEN_REQUESTS)%N))
  end.
Lemma admit_is : forall s id now, fst (admit s id now) = fst (limit_of (entry s id) now) /\ entry (snd (admit s id now)) id = Some (snd (limit_of (entry s id) now)).
Proof.
  intros s id now. unfold admit. destruct (entry s id) as [[l e]|] eqn:E; cbn [limit_of]; [|split; [reflexivity|apply entry_same]].
  destruct (now <? e)%N; [|split; [reflexivity|apply entry_same]]. destruct l; [split; [reflexivity|exact E]|split; [reflexivity|apply entry_same]].
Qed.

Section Run.
Variable rb : bool.
Variable id : str.
Variable k : nat.
Notation T := TIME_BETWEEN_REQUESTS.
Notation M := MAX_REQUESTS.
Definition mine (a : arrival) : bool := of_client rb id a && at_worker k a.
Lemma handle_cases : forall st a,
  (mine a = false /\ entry (snd (handle rb st a) k) id = entry (st k) id) \/
  (mine a = true /\ (exists c, fst (handle rb st a) = if fst (limit_of (entry (st k) id) (a_time a)) then Served c else TooMany) /\
   entry (snd (handle rb st a) k) id = Some (snd (limit_of (entry (st k) id) (a_time a)))).
Proof.
  intros st a. unfold handle, mine, of_client, at_worker, client. set (g := get_rate_limit_identifier (a_from a)).
  assert (L : forall c i, (str_eqb i id && Nat.eqb (a_worker a) k = false /\ entry (snd (limited c st a i) k) id = entry (st k) id) \/
    (str_eqb i id && Nat.eqb (a_worker a) k = true /\ (exists c', fst (limited c st a i) = if fst (limit_of (entry (st k) id) (a_time a)) then Served c' else TooMany) /\
     entry (snd (limited c st a i) k) id = Some (snd (limit_of (entry (st k) id) (a_time a))))).
  { intros c i. unfold limited. pose proof (admit_is (st (a_worker a)) i (a_time a)) as [A B]. pose proof (admit_other (st (a_worker a)) id i (a_time a)) as O. destruct (admit (st (a_worker a)) i (a_time a)) as [ok s]. cbn [fst snd] in *.
    destruct (str_eqb i id) eqn:Ei; destruct (Nat.eqb (a_worker a) k) eqn:Ek; cbn [andb].
    - apply str_eqb_eq in Ei. apply Nat.eqb_eq in Ek. subst i k. right. split; [reflexivity|]. rewrite Nat.eqb_refl. split; [exists c; rewrite A; reflexivity|exact B].
    - left. split; [reflexivity|]. rewrite Nat.eqb_sym, Ek. reflexivity.
    - left. split; [reflexivity|]. apply Nat.eqb_eq in Ek. subst k. rewrite Nat.eqb_refl. apply O. intros ->. rewrite str_eqb_refl in Ei. discriminate.
    - left. split; [reflexivity|]. rewrite Nat.eqb_sym, Ek. reflexivity. }
  destruct g as [i|]; [apply L|]. destruct (if rb then _ else None) as [i|]; [apply L|]. left. split; reflexivity.
Qed.
Definition mine_in (s e : N) (a : arrival) : bool := mine a && (s <=? a_time a)%N && (a_time a <? e)%N.
Lemma mine_in_is : forall s e a, both (both (of_client rb id) (at_worker k)) (during s e) a = mine_in s e a.
Proof. intros. unfold both, during, mine_in, mine. rewrite andb_assoc. reflexivity. Qed.

Definition after (s : N) (l : list arrival) : Prop := Forall (fun a => s <= a_time a)%N l.
Lemma order_after : forall a l, in_order (a :: l) -> after (a_time a) l /\ in_order l.
Proof.
  intros a l. revert a. induction l as [|b l IH]; intros a H; [split; [constructor|exact I]|]. destruct H as [H1 H2]. split; [|exact H2]. destruct (IH b H2) as [A _].
  constructor; [exact H1|]. eapply Forall_impl; [|exact A]. cbn. lia.
Qed.
Lemma late_none : forall l st s e, after e l -> served (mine_in s e) l (serve rb st l) = 0%nat.
Proof.
  induction l as [|a l IH]; intros st s e H; [reflexivity|]. inversion H as [|? ? H1 H2]; subst. cbn [serve]. destruct (handle rb st a) as [x st']. cbn [served]. rewrite (IH st' s e H2).
  replace (mine_in s e a) with false; [reflexivity|]. symmetry. unfold mine_in. apply andb_false_iff. right. apply N.ltb_ge. exact H1.
Qed.
(** While the entry lasts, no more requests are served than it has left. *)
Lemma covered : forall l st s e c x, entry (st k) id = Some (c, x) -> (e <= x)%N -> in_order l -> (served (mine_in s e) l (serve rb st l) <= c)%nat.
Proof.
  induction l as [|a l IH]; intros st s e c x He Hx Ho; [cbn; lia|]. destruct (order_after a l Ho) as [Ha Ho']. cbn [serve]. pose proof (handle_cases st a) as C. destruct (handle rb st a) as [y st'] eqn:Hh. cbn [served fst snd] in *.
  destruct (N.le_gt_cases e (a_time a)) as [L|L].
  - rewrite late_none; [|eapply Forall_impl; [|exact Ha]; cbn; lia]. replace (mine_in s e a) with false; [lia|]. symmetry. unfold mine_in. apply andb_false_iff. right. apply N.ltb_ge. exact L.
  - destruct C as [[C1 C2]|[C1 [[ck C2] C3]]].
    + assert (Q : mine_in s e a = false) by (unfold mine_in; rewrite C1; reflexivity). rewrite Q. rewrite He in C2. apply (IH st' s e c x C2 Hx Ho').
    + rewrite He in C2, C3. cbn [limit_of] in C2, C3. replace (a_time a <? x)%N with true in C2, C3 by (symmetry; apply N.ltb_lt; lia). destruct c as [|c]; cbn [fst snd] in C2, C3.
      * subst y. pose proof (IH st' s e 0%nat x C3 Hx Ho'). destruct (mine_in s e a); lia.
      * subst y. pose proof (IH st' s e c x C3 Hx Ho'). destruct (mine_in s e a); lia.
Qed.
Definition credit (o : option (nat * N)) (s : N) : nat := match o with Some (c, x) => if (s <? x)%N then c else 0%nat | None => 0%nat end.
Lemma from_here : forall l st s, after s l -> in_order l -> (served (mine_in s (s + T)) l (serve rb st l) <= credit (entry (st k) id) s + M)%nat.
Proof.
  induction l as [|a l IH]; intros st s Hs Ho; [cbn; lia|]. destruct (order_after a l Ho) as [Ha Ho']. inversion Hs as [|? ? S1 S2]; subst. cbn [serve]. pose proof (handle_cases st a) as C. destruct (handle rb st a) as [y st'] eqn:Hh. cbn [served fst snd] in *.
  destruct C as [[C1 C2]|[C1 [[ck C2] C3]]].
  - assert (Q : mine_in s (s + T) a = false) by (unfold mine_in; rewrite C1; reflexivity). rewrite Q. rewrite <- C2. apply (IH st' s S2 Ho').
  - assert (New : fst (limit_of (entry (st k) id) (a_time a)) = true -> snd (limit_of (entry (st k) id) (a_time a)) = (pred M, (a_time a + T)%N) ->
      ((if mine_in s (s + T) a then match y with Served _ => 1 | _ => 0 end else 0) + served (mine_in s (s + T)) l (serve rb st' l) <= credit (entry (st k) id) s + M)%nat).
    { intros N1 N2. rewrite N2 in C3. pose proof (covered l st' s (s + T)%N (pred M) (a_time a + T)%N C3 ltac:(lia) Ho') as B. assert (M = S (pred M)) by reflexivity. destruct (mine_in s (s + T) a); [destruct y; lia|lia]. }
    destruct (entry (st k) id) as [[c x]|] eqn:E; [|apply New; reflexivity]. cbn [limit_of] in *. destruct (a_time a <? x)%N eqn:Lt; [|apply New; reflexivity]. clear New.
    apply N.ltb_lt in Lt. assert (Sx : (s <? x)%N = true) by (apply N.ltb_lt; lia). cbn [credit]. rewrite Sx.
    pose proof (IH st' s S2 Ho') as B. destruct c as [|c]; cbn [fst snd] in *; rewrite C3 in B; cbn [credit] in B; rewrite Sx in B; subst y; destruct (mine_in s (s + T) a); lia.
Qed.
(** No entry ever has more than [M - 1] requests left. *)
Definition modest (o : option (nat * N)) : Prop := match o with Some (c, _) => (c <= pred M)%nat | None => True end.
Lemma modest_step : forall o now, modest o -> modest (Some (snd (limit_of o now))).
Proof. intros [[c x]|] now H; cbn [limit_of modest] in *; [|cbn; lia]. destruct (now <? x)%N; [destruct c; cbn [snd modest] in *; lia|cbn; lia]. Qed.
Lemma window : forall l st s, modest (entry (st k) id) -> in_order l -> (served (mine_in s (s + T)) l (serve rb st l) <= pred M + M)%nat.
Proof.
  induction l as [|a l IH]; intros st s Hm Ho; [cbn; lia|]. destruct (order_after a l Ho) as [Ha Ho'].
  destruct (N.le_gt_cases s (a_time a)) as [L|L].
  - assert (A : after s (a :: l)) by (constructor; [exact L|eapply Forall_impl; [|exact Ha]; cbn; lia]). pose proof (from_here (a :: l) st s A Ho) as B.
    assert (C : (credit (entry (st k) id) s <= pred M)%nat); [|lia]. destruct (entry (st k) id) as [[c x]|]; cbn [credit modest] in *; [destruct (s <? x)%N; lia|lia].
  - cbn [serve]. pose proof (handle_cases st a) as C. destruct (handle rb st a) as [y st'] eqn:Hh. cbn [served fst snd] in *.
    assert (Q : mine_in s (s + T) a = false) by (unfold mine_in; replace (s <=? a_time a)%N with false by (symmetry; apply N.leb_gt; exact L); rewrite andb_false_r; reflexivity). rewrite Q.
    apply IH; [|exact Ho']. destruct C as [[_ C2]|[_ [_ C3]]]; [rewrite C2; exact Hm|rewrite C3; apply modest_step, Hm].
Qed.

(** A request is refused only if [M] were served shortly before. [h] is what has happened, in order. *)
Definition used (l : list arrival) (xs : list answer) (o : option (nat * N)) (now : N) : Prop :=
  match o with Some (c, x) => (x <= now + T)%N /\ (M <= c + served (mine_in (x - T) (now + 1)) l xs)%nat | None => True end.
Lemma served_app : forall p l l' xs xs', List.length l = List.length xs -> served p (l ++ l') (xs ++ xs') = (served p l xs + served p l' xs')%nat.
Proof. intros p. induction l as [|a l IH]; intros l' [|x xs] xs' H; try discriminate; [reflexivity|]. cbn [app served]. rewrite IH by (injection H; auto). lia. Qed.
Lemma served_mono : forall p q l xs, (forall a, p a = true -> q a = true) -> (served p l xs <= served q l xs)%nat.
Proof. intros p q l. induction l as [|a l IH]; intros [|x xs] H; cbn [served]; try lia. specialize (IH xs H). specialize (H a). destruct (p a); [rewrite H by reflexivity; lia|]. destruct (q a); [destruct x; lia|lia]. Qed.
Lemma serve_length : forall l st, List.length (serve rb st l) = List.length l.
Proof. induction l as [|a l IH]; intros st; [reflexivity|]. cbn [serve]. destruct (handle rb st a). cbn [List.length]. rewrite IH. reflexivity. Qed.
Lemma used_later : forall l xs o now now', (now <= now')%N -> used l xs o now -> used l xs o now'.
Proof.
  intros l xs [[c x]|] now now' H U; [|exact I]. destruct U as [U1 U2]. split; [lia|]. eapply Nat.le_trans; [exact U2|]. apply Nat.add_le_mono_l, served_mono. intros a. unfold mine_in. rewrite !andb_true_iff, !N.leb_le, !N.ltb_lt.
  intuition lia.
Qed.
Lemma refused_after : forall l st h hx now a l' b, List.length h = List.length hx -> used h hx (entry (st k) id) now -> after now l -> in_order l ->
  l = a ++ b :: l' -> mine b = true -> nth_error (serve rb st l) (List.length a) = Some TooMany ->
  (M <= served (mine_in (a_time b + 1 - T) (a_time b + 1)) (h ++ a) (hx ++ firstn (List.length a) (serve rb st l)))%nat.
Proof.
  induction l as [|a0 l IH]; intros st h hx now a l' b Hl Hu Hn Ho El Hb Hr; [destruct a; discriminate|]. destruct (order_after a0 l Ho) as [Ha Ho']. inversion Hn as [|? ? N1 N2]; subst.
  cbn [serve] in *. pose proof (handle_cases st a0) as C. destruct (handle rb st a0) as [y st'] eqn:Hh. cbn [fst snd] in C.
  pose proof (used_later h hx _ now (a_time a0) N1 Hu) as Hu'.
  destruct a as [|a1 a]; cbn [app List.length nth_error firstn] in *.
  - injection El as -> <-. injection Hr as ->. rewrite !app_nil_r. destruct C as [[C1 _]|[_ [[ck C2] _]]]; [congruence|]. destruct (entry (st k) id) as [[c x]|]; cbn [limit_of] in C2; [|discriminate].
    destruct (a_time b <? x)%N eqn:Lt; [|discriminate]. destruct c as [|c]; [|discriminate]. destruct Hu' as [U1 U2]. apply N.ltb_lt in Lt. eapply Nat.le_trans; [exact U2|]. cbn [plus]. apply served_mono.
    intros a. unfold mine_in. rewrite !andb_true_iff, !N.leb_le, !N.ltb_lt. intuition lia.
  - injection El as <- ->. replace (h ++ a0 :: a) with ((h ++ [a0]) ++ a) by (rewrite <- app_assoc; reflexivity). replace (hx ++ y :: firstn (List.length a) (serve rb st' (a ++ b :: l'))) with ((hx ++ [y]) ++ firstn (List.length a) (serve rb st' (a ++ b :: l'))) by (rewrite <- app_assoc; reflexivity).
    apply (IH st' (h ++ [a0]) (hx ++ [y]) (a_time a0) a l' b); auto; [rewrite !app_length, Hl; reflexivity|].
    assert (One : forall s e, served (mine_in s e) [a0] [y] = if mine_in s e a0 then match y with Served _ => 1%nat | _ => 0%nat end else 0%nat) by (intros s e; cbn [served]; lia).
    assert (In0 : forall x, mine a0 = true -> (x - T <= a_time a0)%N -> mine_in (x - T) (a_time a0 + 1) a0 = true) by (intros x Hm Hx; unfold mine_in; rewrite Hm, !andb_true_iff, N.leb_le, N.ltb_lt; lia).
    destruct C as [[C1 C2]|[C1 [[ck C2] C3]]].
    + rewrite C2. destruct (entry (st k) id) as [[c x]|]; [|exact I]. destruct Hu' as [U1 U2]. split; [exact U1|]. rewrite served_app by exact Hl. lia.
    + rewrite C3. destruct (entry (st k) id) as [[c x]|]; cbn [limit_of] in *.
      * destruct Hu' as [U1 U2]. destruct (a_time a0 <? x)%N.
        -- destruct c as [|c]; cbn [fst snd] in *; (split; [exact U1|]); rewrite served_app, One by exact Hl; [lia|]. subst y. rewrite In0 by (auto; lia). lia.
        -- cbn [fst snd] in *. split; [lia|]. rewrite served_app, One by exact Hl. subst y. rewrite In0 by (auto; lia). assert (M = S (pred M)) by reflexivity. lia.
      * cbn [fst snd] in *. split; [lia|]. rewrite served_app, One by exact Hl. subst y. rewrite In0 by (auto; lia). assert (M = S (pred M)) by reflexivity. lia.
Qed.
End Run.

(** ** The theorems *)
Lemma served_ext : forall p q l xs, (forall a, p a = q a) -> served p l xs = served q l xs.
Proof. intros p q l. induction l as [|a l IH]; intros [|x xs] H; cbn [served]; auto. rewrite H, (IH xs H). reflexivity. Qed.

(** In any minute one worker serves a client at most 199 times, whatever the requests of all clients. *)
Theorem C84_bound : forall rb arrivals id worker from, in_order arrivals ->
  (served (both (both (of_client rb id) (at_worker worker)) (during from (from + 60000))) arrivals (server rb arrivals) <= 199)%nat.
Proof.
  intros rb l id k s H. rewrite (served_ext _ _ _ _ (mine_in_is rb id k s (s + 60000))). exact (window rb id k l (fun _ => []) s I H).
Qed.
Print Assumptions C84_bound.

(** With [n] workers, at most [n] times as often. *)
Lemma served_split : forall p n l xs, Forall (fun a => (a_worker a < n)%nat) l -> served p l xs = list_sum (map (fun k => served (both p (at_worker k)) l xs) (seq 0 n)).
Proof.
  intros p n l. induction l as [|a l IH]; intros xs H.
  - cbn [served]. induction (seq 0 n) as [|k s IH]; [reflexivity|]. cbn. exact IH.
  - destruct xs as [|x xs]. { cbn [served]. clear. induction (seq 0 n) as [|k s IHs]; [reflexivity|]. cbn. exact IHs. }
    inversion H as [|? ? H1 H2]; subst. cbn [served]. rewrite (IH xs H2). set (v := match x with Served _ => 1%nat | _ => 0%nat end).
    assert (G : forall s, NoDup s -> (list_sum (map (fun k => (if both p (at_worker k) a then v else 0) + served (both p (at_worker k)) l xs) s) =
      (if p a then if existsb (Nat.eqb (a_worker a)) s then v else 0 else 0) + list_sum (map (fun k => served (both p (at_worker k)) l xs) s))%nat).
    { induction s as [|k s IHs]; intros Nd; [destruct (p a); reflexivity|]. inversion Nd as [|? ? Nk Nd']; subst. cbn [map list_sum fold_right existsb]. specialize (IHs Nd'). unfold list_sum in IHs. rewrite IHs.
      unfold both at 1, at_worker. destruct (p a); cbn [andb]; [|lia]. destruct (Nat.eqb (a_worker a) k) eqn:E; cbn [orb]; [|lia].
      apply Nat.eqb_eq in E. assert (X : existsb (Nat.eqb (a_worker a)) s = false); [|rewrite X; lia]. apply not_true_iff_false. intros X. apply existsb_exists in X. destruct X as (k' & K1 & K2). apply Nat.eqb_eq in K2. congruence. }
    rewrite (G _ (seq_NoDup n 0)). replace (existsb (Nat.eqb (a_worker a)) (seq 0 n)) with true; [reflexivity|]. symmetry. apply existsb_exists. exists (a_worker a). split; [apply in_seq; lia|apply Nat.eqb_refl].
Qed.
Theorem C84_workers : forall rb arrivals id n from, in_order arrivals -> Forall (fun a => (a_worker a < n)%nat) arrivals ->
  (served (both (of_client rb id) (during from (from + 60000))) arrivals (server rb arrivals) <= n * 199)%nat.
Proof.
  intros rb l id n s H Hw. rewrite (served_split _ n _ _ Hw).
  assert (G : forall ks, (list_sum (map (fun k => served (both (both (of_client rb id) (during s (s + 60000))) (at_worker k)) l (server rb l)) ks) <= List.length ks * 199)%nat).
  { induction ks as [|k ks IH]; [cbn; lia|]. cbn [map list_sum fold_right List.length]. unfold list_sum in IH.
    assert (B : (served (both (both (of_client rb id) (during s (s + 60000))) (at_worker k)) l (server rb l) <= 199)%nat); [|lia].
    rewrite (served_ext _ (both (both (of_client rb id) (at_worker k)) (during s (s + 60000)))); [apply C84_bound; exact H|]. intros a. unfold both. destruct (of_client rb id a), (at_worker k a), (during s (s + 60000) a); reflexivity. }
  pose proof (G (seq 0 n)) as B. rewrite seq_length in B. exact B.
Qed.
Print Assumptions C84_workers.

(** A client is refused only if its worker has served it 100 times in the minute before. *)
Theorem C84_refused : forall rb before a after id, in_order (before ++ a :: after) -> client rb a = Some id ->
  nth_error (server rb (before ++ a :: after)) (List.length before) = Some TooMany ->
  (100 <= served (both (both (of_client rb id) (at_worker (a_worker a))) (during (a_time a + 1 - 60000) (a_time a + 1))) before (server rb before))%nat.
Proof.
  intros rb before a after' id Ho Hc Hr. rewrite (served_ext _ _ _ _ (mine_in_is rb id (a_worker a) _ _)).
  assert (P : forall l st l', firstn (List.length l) (serve rb st (l ++ l')) = serve rb st l).
  { induction l as [|b l IH]; intros st l'; [reflexivity|]. cbn [app serve List.length]. destruct (handle rb st b). cbn [firstn]. rewrite IH. reflexivity. }
  pose proof (refused_after rb id (a_worker a) (before ++ a :: after') (fun _ => []) [] [] 0%N before after' a eq_refl I) as R. cbn [app] in R. unfold server in *. rewrite P in R. apply R; auto.
  - apply Forall_forall. intros x _. lia.
  - unfold mine, of_client, at_worker. rewrite Hc, str_eqb_refl, Nat.eqb_refl. reflexivity.
Qed.
Print Assumptions C84_refused.

(** Clients do not use up each other's requests: the answers to a client are those it would get alone. *)
Lemma alone : forall rb id l st st', (forall k, entry (st k) id = entry (st' k) id) ->
  map snd (filter (fun p => of_client rb id (fst p)) (combine l (serve rb st l))) = serve rb st' (filter (of_client rb id) l).
Proof.
  intros rb id. induction l as [|a l IH]; intros st st' H; [reflexivity|]. cbn [serve filter]. destruct (handle rb st a) as [x s1] eqn:H1. cbn [combine filter fst]. assert (OC : of_client rb id a = match client rb a with Some i => str_eqb i id | None => false end) by reflexivity. rewrite !OC. unfold client.
  assert (Lim : forall c i, str_eqb i id = true -> fst (limited c st a i) = fst (limited c st' a i) /\ forall k, entry (snd (limited c st a i) k) id = entry (snd (limited c st' a i) k) id).
  { intros c i Ei. apply str_eqb_eq in Ei. subst i. unfold limited. pose proof (admit_is (st (a_worker a)) id (a_time a)) as [A B]. pose proof (admit_is (st' (a_worker a)) id (a_time a)) as [A' B']. rewrite <- H in A', B'.
    destruct (admit (st (a_worker a)) id (a_time a)) as [ok s], (admit (st' (a_worker a)) id (a_time a)) as [ok' s']. cbn [fst snd] in *. split; [rewrite A, A'; reflexivity|]. intros k. destruct (Nat.eqb k (a_worker a)); [rewrite B, B'; reflexivity|apply H]. }
  assert (Oth : forall c i, str_eqb i id = false -> forall k, entry (snd (limited c st a i) k) id = entry (st k) id).
  { intros c i Ei k. unfold limited. pose proof (admit_other (st (a_worker a)) id i (a_time a)) as O. destruct (admit (st (a_worker a)) i (a_time a)) as [ok s]. cbn [snd] in *. destruct (Nat.eqb k (a_worker a)) eqn:Ek; [|reflexivity]. apply Nat.eqb_eq in Ek. subst k. apply O. intros ->. rewrite str_eqb_refl in Ei. discriminate. }
  assert (Step : forall c i, handle rb st a = limited c st a i -> handle rb st' a = limited c st' a i ->
    map snd (if str_eqb i id then (a, x) :: filter (fun p => of_client rb id (fst p)) (combine l (serve rb s1 l)) else filter (fun p => of_client rb id (fst p)) (combine l (serve rb s1 l))) =
    serve rb st' (if str_eqb i id then a :: filter (of_client rb id) l else filter (of_client rb id) l)).
  { intros c i E E'. rewrite H1 in E. destruct (str_eqb i id) eqn:Ei.
    - destruct (Lim c i Ei) as [L1 L2]. cbn [map snd serve]. rewrite E'. rewrite <- E in L1, L2. cbn [fst snd] in L1, L2. destruct (limited c st' a i) as [x' s1']. cbn [fst snd] in *. subst x'. f_equal. apply IH. exact L2.
    - apply IH. intros k. specialize (Oth c i Ei k). rewrite <- E in Oth. cbn [snd] in Oth. rewrite Oth. apply H. }
  unfold handle in Step. destruct (get_rate_limit_identifier (a_from a)) as [i|] eqn:G; [apply (Step None i); reflexivity|].
  unfold handle in H1. rewrite G in H1. destruct (if rb then _ else None) as [i|] eqn:G2; [apply (Step (Some (generate_rate_limit_id (a_uuid a))) i); reflexivity|].
  injection H1 as <- <-. apply IH. exact H.
Qed.
Theorem C84_alone : forall rb arrivals id,
  map snd (filter (fun p => of_client rb id (fst p)) (combine arrivals (server rb arrivals))) = server rb (filter (of_client rb id) arrivals).
Proof. intros rb l id. apply alone. reflexivity. Qed.
Print Assumptions C84_alone.

(** A client with an address gets no cookie. One known by nothing: if the inserted header is read back it is served with a new
    cookie, whose return makes it the same client; if not it gets an error and no cookie, every time. *)
Theorem C84_cookies : forall rb before a after x, nth_error (server rb (before ++ a :: after)) (List.length before) = Some x ->
  (forall b, known_by (a_from a) b -> x = Served None \/ x = TooMany) /\
  ((forall b, ~ known_by (a_from a) b) -> rb = false -> x = Unidentified) /\
  ((forall b, ~ known_by (a_from a) b) -> rb = true -> (x = Served (Some (generate_rate_limit_id (a_uuid a))) \/ x = TooMany) /\
     forall r, remote_addr r = None -> peer_addr r = None -> id_cookie r = Some (utf8 (generate_rate_limit_id (a_uuid a)), None) -> get_rate_limit_identifier r = client rb a).
Proof.
  intros rb before a after' x Hx.
  assert (At : exists st, x = fst (handle rb st a)).
  { revert Hx. unfold server. generalize (fun _ : nat => @nil (str * (nat * N))). induction before as [|b before IH]; intros st Hx.
    - cbn [app serve] in Hx. exists st. destruct (handle rb st a). cbn in *. congruence.
    - cbn [app serve List.length] in Hx. destruct (handle rb st b) as [y st']. cbn [nth_error] in Hx. exact (IH st' Hx). }
  destruct At as [st ->]. unfold handle, client. split; [|split].
  - intros b Hb. destruct (get_rate_limit_identifier (a_from a)) as [i|] eqn:G; [|exfalso; apply (proj1 (C38_unknown (a_from a)) G b Hb)]. unfold limited. destruct (admit _ i _) as [[] s]; auto.
  - intros Hn ->. rewrite (proj2 (C38_unknown (a_from a)) Hn). reflexivity.
  - intros Hn ->. pose proof (proj2 (C38_unknown (a_from a)) Hn) as G. rewrite G. destruct (a_from a) as [ra pa ic]. destruct ra as [b|]; [exfalso; apply (Hn b); constructor|]. destruct pa as [b|]; [exfalso; apply (Hn b); constructor|].
    unfold with_cookie. cbn [remote_addr peer_addr]. split; [cbn; unfold limited; destruct (admit _ _ _) as [[] s]; auto|]. intros [ra' pa' ic'] R1 R2 R3. cbn in R1, R2, R3. subst. reflexivity.
Qed.
Print Assumptions C84_cookies.

(** 100 requests a minute are not what is enforced: two workers serve 200 at one instant, and one worker 199 within a minute. *)
Fixpoint ordered (l : list arrival) : bool := match l with a :: (b :: _) as l' => (a_time a <=? a_time b)%N && ordered l' | _ => true end.
Lemma ordered_ok : forall l, ordered l = true -> in_order l.
Proof. induction l as [|a [|b l] IH]; intros H; try exact I. cbn [ordered] in H. apply andb_true_iff in H. destruct H as [H1 H2]. split; [apply N.leb_le; exact H1|exact (IH H2)]. Qed.
Definition home : sender := Sender (Some (lit "10.0.0.1")) None None.
Definition at_ (k : nat) (t : N) : arrival := Arrival k t home [].
Theorem C84_limit_refuted : ~ (forall rb arrivals id from, in_order arrivals -> (served (both (of_client rb id) (during from (from + 60000))) arrivals (server rb arrivals) <= 100)%nat) /\
  ~ (forall rb arrivals id from, in_order arrivals -> Forall (fun a => a_worker a = 0%nat) arrivals -> (served (both (of_client rb id) (during from (from + 60000))) arrivals (server rb arrivals) <= 198)%nat).
Proof.
  split; intros H.
  - specialize (H false (repeat (at_ 0 5) 100 ++ repeat (at_ 1 5) 100) (lit "MTAuMC4wLjE") 0%N). assert (L : in_order (repeat (at_ 0 5) 100 ++ repeat (at_ 1 5) 100)) by (apply ordered_ok; vm_compute; reflexivity). specialize (H L). revert H. apply Nat.lt_nge. apply Nat.ltb_lt. vm_compute. reflexivity.
  - specialize (H false (at_ 0 0 :: repeat (at_ 0 59999) 99 ++ repeat (at_ 0 60000) 100) (lit "MTAuMC4wLjE") 1%N).
    assert (L : in_order (at_ 0 0 :: repeat (at_ 0 59999) 99 ++ repeat (at_ 0 60000) 100)) by (apply ordered_ok; vm_compute; reflexivity). specialize (H L). assert (F : Forall (fun a => a_worker a = 0%nat) (at_ 0 0 :: repeat (at_ 0 59999) 99 ++ repeat (at_ 0 60000) 100)) by (cbn; repeat constructor).
    specialize (H F). revert H. apply Nat.lt_nge. apply Nat.ltb_lt. vm_compute. reflexivity.
Qed.
Print Assumptions C84_limit_refuted.

(** The 101st request at one instant is refused, another client's is not, and a minute later the first client is served again. *)
Example C84_case : in_order (repeat (at_ 0 7) 100 ++ [at_ 0 7; Arrival 0 8 (Sender None None None) []; at_ 0 60007]) /\ client false (at_ 0 7) = Some (lit "MTAuMC4wLjE") /\
  skipn 99 (server false (repeat (at_ 0 7) 100 ++ [at_ 0 7; Arrival 0 8 (Sender None None None) []; at_ 0 60007])) = [Served None; TooMany; Unidentified; Served None] /\
  server true [Arrival 0 8 (Sender None None None) (repeat 0%N 16); Arrival 0 9 (Sender None None (Some (utf8 (lit "AAAAAAAAAAAAAAAAAAAAAA"), None))) []] = [Served (Some (lit "AAAAAAAAAAAAAAAAAAAAAA")); Served None].
Proof. split; [apply ordered_ok; vm_compute; reflexivity|]. vm_compute. repeat split; reflexivity. Qed.
