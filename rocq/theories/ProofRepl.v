From Coq Require Import List NArith ZArith Bool Arith Lia String.
From Verif Require Import ModelBase ModelContext ModelText ModelDefault ModelSplit ModelTokenizer ModelRepl SpecText SpecLex SpecRepl ProofText ProofDefault.
Import ListNotations.

(** ** Lists *)
Section Lists.
Context {A : Type}.
Lemma last_n_all : forall n (l : list A), List.length l <= n -> last_n n l = l.
Proof. intros n l H. unfold last_n. replace (List.length l - n) with 0 by lia. reflexivity. Qed.
Lemma last_n_len : forall n (l : list A), List.length (last_n n l) = Nat.min n (List.length l).
Proof. intros. unfold last_n. rewrite skipn_length. lia. Qed.
Lemma skipn_twice : forall m n (l : list A), skipn m (skipn n l) = skipn (m + n) l.
Proof.
  intros m n. revert m. induction n as [|n IH]; intros m l; [rewrite Nat.add_0_r; reflexivity|]. destruct l as [|x l]; [rewrite !skipn_nil; reflexivity|].
  rewrite Nat.add_succ_r. simpl. apply IH.
Qed.
Lemma last_n_app : forall n (l m : list A), last_n n (last_n n l ++ m) = last_n n (l ++ m).
Proof.
  intros n l m. unfold last_n. rewrite !app_length, skipn_length. rewrite !skipn_app, skipn_twice, skipn_length.
  replace (List.length l - (List.length l - n) + List.length m - n + (List.length l - n)) with (Nat.max (List.length l - n) (List.length l + List.length m - n)) by lia.
  replace (Nat.max (List.length l - n) (List.length l + List.length m - n)) with (List.length l + List.length m - n) by lia.
  f_equal. f_equal. lia.
Qed.
Lemma last_of_snoc : forall (l : list A) x, last_of_list (l ++ [x]) = Some x.
Proof. intros. unfold last_of_list. rewrite rev_app_distr. reflexivity. Qed.
Lemma snoc_case : forall l : list A, l = [] \/ exists l' x, l = l' ++ [x].
Proof. intros l. destruct l as [|y l _] using rev_ind; eauto. Qed.
Lemma last_n_last : forall n (l : list A), 0 < n -> last_of_list (last_n n l) = last_of_list l.
Proof.
  intros n l Hn. destruct (snoc_case l) as [->|(l' & x & ->)]; [unfold last_n; rewrite skipn_nil; reflexivity|].
  unfold last_n. rewrite app_length, skipn_app. simpl. replace (List.length l' + 1 - n - List.length l') with 0 by lia. simpl. rewrite !last_of_snoc. reflexivity.
Qed.
Lemma c_last_spec : forall a : carray A, c_last a = last_of_list (c_data a).
Proof.
  intros [d cap]. unfold c_last. simpl. destruct (snoc_case d) as [->|(l & x & ->)]; [reflexivity|]. rewrite last_of_snoc, app_length. simpl.
  replace (pred (List.length l + 1)) with (List.length l) by lia. rewrite nth_error_app2 by lia. rewrite Nat.sub_diag. reflexivity.
Qed.

(** ** The array *)
Lemma push_spec : forall (x : A) a, 0 < c_cap a -> List.length (c_data a) <= c_cap a -> c_push x a = Ok (CArray (last_n (c_cap a) (c_data a ++ [x])) (c_cap a)).
Proof.
  intros x [d cap] Hc Hl. unfold c_push. simpl in *. destruct (Nat.eqb_spec (List.length d) cap) as [E|E].
  - destruct d as [|y d]; [simpl in E; lia|]. f_equal. f_equal. unfold last_n. rewrite app_length. cbn [List.length] in *.
    replace (S (List.length d) + 1 - cap) with 1 by lia. reflexivity.
  - rewrite last_n_all by (rewrite app_length; simpl; lia). reflexivity.
Qed.
Lemma reached_inv : forall cap (a : carray A), reached cap a -> c_cap a = cap /\ List.length (c_data a) <= cap.
Proof.
  induction 1 as [|a x a' _ [IH1 IH2] H|a _ [IH1 IH2]|a i _ [IH1 IH2]].
  - simpl. split; [reflexivity|lia].
  - destruct cap as [|cap].
    + exfalso. unfold c_push in H. rewrite IH1 in H. destruct (c_data a); simpl in *; [discriminate|lia].
    + rewrite push_spec in H by lia. injection H as <-. simpl. rewrite last_n_len. lia.
  - unfold c_pop. destruct (rev (c_data a)) as [|x r] eqn:E; [auto|]. simpl. split; [exact IH1|]. apply (f_equal (@List.length A)) in E. rewrite rev_length in E. simpl in E. rewrite rev_length. lia.
  - unfold c_remove. destruct (Nat.leb_spec (List.length (c_data a)) i); [auto|]. cbn [snd c_cap c_data]. split; [exact IH1|]. rewrite app_length, firstn_length, skipn_length. lia.
Qed.
Lemma push_all_spec : forall (xs : list A) a, 0 < c_cap a -> List.length (c_data a) <= c_cap a -> push_all xs a = Ok (CArray (last_n (c_cap a) (c_data a ++ xs)) (c_cap a)).
Proof.
  induction xs as [|x xs IH]; intros a Hc Hl; simpl.
  - rewrite app_nil_r, last_n_all by exact Hl. destruct a. reflexivity.
  - rewrite push_spec by assumption. cbn [rbind]. rewrite IH; cbn [c_cap c_data]; [|assumption|rewrite last_n_len; lia].
    rewrite last_n_app, <- app_assoc. reflexivity.
Qed.
End Lists.

(** ** The prompt *)
Section Prompt.
Context {St : Type}.
Variable f : str -> St -> res flow * St.

(** The invariant of the loop, with a log. *)
Definition fine (cap : nat) (r : repl (St * list (str * flow))) : Prop :=
  c_cap (r_history r) = cap /\ c_data (r_history r) = last_n cap (remembered (snd (r_state r))) /\
  r_cursor r <= List.length (c_data (r_history r)) /\ displayed (r_out r) = r_buf r.
Definition fine_outcome (cap : nat) (o : outcome (St * list (str * flow))) : Prop :=
  match o with Running r | Stopped r => fine cap r | Crashed => True end.

Lemma displayed_snoc : forall out o, displayed (out ++ [o]) = show (displayed out) o.
Proof. intros. unfold displayed. rewrite fold_left_app. reflexivity. Qed.
Lemma remembered_snoc : forall log e, remembered (log ++ [e]) = remember (remembered log) e.
Proof. intros. unfold remembered. rewrite fold_left_app. reflexivity. Qed.
Lemma fine_len : forall cap r, fine cap r -> List.length (c_data (r_history r)) <= cap.
Proof. intros cap r (_ & H & _). rewrite H, last_n_len. lia. Qed.

Lemma step_fine : forall cap r k, 0 < cap -> fine cap r -> fine_outcome cap (repl_step (logged f) r k).
Proof.
  intros cap r k Hc F. pose proof (fine_len cap r F) as Hl. destruct r as [hist cur buf [st log] out]. destruct F as (F1 & F2 & F3 & F4). cbn [r_history r_cursor r_buf r_state r_out snd] in *.
  assert (FF : fine cap (Repl hist cur buf (st, log) out)) by (repeat split; assumption).
  destruct k as [| | | |c| | |]; cbn [repl_step].
  - destruct buf as [|b buf]; [exact FF|]. repeat split; cbn [r_history r_cursor r_buf r_state r_out snd]; try assumption. rewrite displayed_snoc, F4. reflexivity.
  - unfold logged. cbn [fst snd]. destruct (f buf st) as [[a|e|] st']; try exact I.
    assert (O : displayed (out ++ [Newline]) = []) by (rewrite displayed_snoc; reflexivity).
    assert (K : forall a, a <> FNone -> fine cap (Repl hist cur [] (st', log ++ [(buf, a)]) (out ++ [Newline]))).
    { intros a' Ha. split; [exact F1|]. cbn [r_history r_cursor r_buf r_state r_out snd]. rewrite remembered_snoc. split; [destruct a'; [congruence|exact F2|exact F2]|]. auto. }
    destruct a; [|apply K; discriminate|apply K; discriminate].
    destruct (trim buf) as [|t0 t] eqn:Et.
    + split; [assumption|split; [|split; [assumption|exact O]]]. cbn [r_state snd r_history c_data]. rewrite remembered_snoc. unfold remember. rewrite Et. exact F2.
    + rewrite c_last_spec. rewrite F2, last_n_last by exact Hc.
      assert (R : remembered (log ++ [(buf, FNone)]) = match last_of_list (remembered log) with Some l => if str_eqb l buf then remembered log else remembered log ++ [buf] | None => remembered log ++ [buf] end).
      { rewrite remembered_snoc. unfold remember at 1. rewrite Et. reflexivity. }
      assert (P : forall h', c_push buf hist = Ok h' -> remembered (log ++ [(buf, FNone)]) = remembered log ++ [buf] -> fine cap (Repl h' (c_len h') [] (st', log ++ [(buf, FNone)]) (out ++ [Newline]))).
      { intros h' Hp Hr. rewrite push_spec in Hp by lia. injection Hp as <-. split; [exact F1|]. cbn [r_history c_data r_state snd r_cursor c_len]. rewrite Hr, F1, F2, last_n_app. split; [reflexivity|]. split; [unfold c_len; cbn [c_data]; lia|exact O]. }
      assert (X : c_push buf hist = Ok (CArray (last_n (c_cap hist) (c_data hist ++ [buf])) (c_cap hist))) by (apply push_spec; lia).
      destruct (last_of_list (remembered log)) as [l|]; [destruct (str_eqb l buf)|].
      * split; [exact F1|]. cbn [r_history c_data r_state snd r_cursor]. rewrite R. split; [exact F2|]. split; [unfold c_len; lia|exact O].
      * rewrite X. apply P; assumption.
      * rewrite X. apply P; assumption.
  - destruct cur as [|cur]; [exact FF|]. unfold c_index. destruct (nth_error (c_data hist) cur) as [s|]; [|exact I].
    repeat split; cbn [r_history r_cursor r_buf r_state r_out snd]; try assumption; [lia|]. rewrite displayed_snoc. reflexivity.
  - destruct (Nat.ltb_spec cur (c_len hist)) as [H|H]; [|exact FF]. unfold c_len in *. destruct (Nat.eqb_spec (S cur) (List.length (c_data hist))).
    + repeat split; cbn [r_history r_cursor r_buf r_state r_out snd]; try assumption; try lia. rewrite displayed_snoc. reflexivity.
    + unfold c_index. destruct (nth_error (c_data hist) (S cur)) as [s|]; [|exact I]. repeat split; cbn [r_history r_cursor r_buf r_state r_out snd]; try assumption; try lia. rewrite displayed_snoc. reflexivity.
  - repeat split; cbn [r_history r_cursor r_buf r_state r_out snd]; try assumption. rewrite displayed_snoc, F4. reflexivity.
  - exact FF.
  - exact FF.
  - exact FF.
Qed.
Lemma run_fine : forall cap keys r, 0 < cap -> fine cap r -> fine_outcome cap (repl_run (logged f) r keys).
Proof.
  intros cap. induction keys as [|k keys IH]; intros r Hc F; [exact F|]. cbn [repl_run]. pose proof (step_fine cap r k Hc F) as S. destruct (repl_step (logged f) r k); [apply IH; assumption|exact S..].
Qed.
Lemma start_fine : forall size st cap, match size with Some n => n | None => 100 end = cap -> fine cap (repl_start size (st, [])).
Proof. intros size st cap <-. repeat split; cbn; lia. Qed.

(** What is crashed is only the callback, if the history has room. *)
Definition safe (f : str -> St -> res flow * St) : Prop := forall s st, exists a st', f s st = (Ok a, st').
Definition good (r : repl St) : Prop := 0 < c_cap (r_history r) /\ List.length (c_data (r_history r)) <= c_cap (r_history r) /\ r_cursor r <= List.length (c_data (r_history r)).
Lemma step_good : forall r k, safe f -> good r -> match repl_step f r k with Running r' => good r' | Stopped r' => good r' | Crashed => False end.
Proof.
  intros [hist cur buf st out] k Hs G. pose proof G as (G1 & G2 & G3). cbn [r_history r_cursor] in *. destruct k; cbn [repl_step]; try exact G.
  - destruct buf; [exact G|]. exact G.
  - destruct (Hs buf st) as (a & st' & ->). destruct a; try exact G. destruct (trim buf); [exact G|].
    destruct (match c_last hist with Some l => str_eqb l buf | None => false end).
    + split; [exact G1|]. split; [exact G2|]. cbn. unfold c_len. lia.
    + rewrite push_spec by assumption. split; [exact G1|]. cbn [r_history c_cap c_data r_cursor]. unfold c_len. cbn [c_data]. rewrite last_n_len. lia.
  - destruct cur as [|cur]; [exact G|]. unfold c_index. destruct (nth_error (c_data hist) cur) eqn:E; [split; [exact G1|]; split; [exact G2|]; cbn; lia|].
    apply nth_error_None in E. lia.
  - destruct (Nat.ltb_spec cur (c_len hist)) as [H|H]; [|exact G]. unfold c_len in *. destruct (Nat.eqb_spec (S cur) (List.length (c_data hist))); [split; [exact G1|]; split; [exact G2|]; cbn; lia|].
    unfold c_index. destruct (nth_error (c_data hist) (S cur)) eqn:E; [split; [exact G1|]; split; [exact G2|]; cbn; lia|]. apply nth_error_None in E. lia.
Qed.
Lemma run_good : forall keys r, safe f -> good r -> match repl_run f r keys with Running r' => good r' | Stopped r' => good r' | Crashed => False end.
Proof.
  induction keys as [|k keys IH]; intros r Hs G; [exact G|]. cbn [repl_run]. pose proof (step_good r k Hs G) as S. destruct (repl_step f r k); [apply IH; assumption|exact S..].
Qed.
End Prompt.

(** ** Typing and walking *)
Section Typing.
Context {St : Type}.
Variable f : str -> St -> res flow * St.
Definition is_edit (k : key) : Prop := match k with KChar _ | KBackspace | KEnter | KOther => True | _ => False end.
Lemma removelast_nil : forall s : str, removelast s = [] -> s = [] \/ exists x, s = [x].
Proof. intros [|x [|y s]] H; eauto. discriminate. Qed.

Lemma lines_logged : forall keys r, 0 < c_cap (r_history r) -> List.length (c_data (r_history r)) <= c_cap (r_history r) ->
  (forall s st, exists a st', f s st = (Ok a, st') /\ a <> FBreak) -> Forall is_edit keys ->
  exists r', repl_run (logged f) r keys = Running r' /\ map fst (snd (r_state r')) = map fst (snd (r_state r)) ++ lines_typed (r_buf r) keys.
Proof.
  induction keys as [|k keys IH]; intros r Hc Hl Hf Hk.
  - exists r. rewrite app_nil_r. auto.
  - inversion Hk as [|? ? K1 K2]; subst. destruct r as [hist cur buf [st log] out]. cbn [r_history r_state r_buf snd] in *. cbn [repl_run].
    destruct k as [| | | |c| | |]; try destruct K1; cbn [repl_step lines_typed].
    + destruct buf as [|b buf]; apply IH; assumption.
    + unfold logged at 1. cbn [fst snd]. destruct (Hf buf st) as (a & st' & Ef & Ha). rewrite Ef.
      assert (T : forall hist' cur', 0 < c_cap hist' -> List.length (c_data hist') <= c_cap hist' ->
        exists r', repl_run (logged f) (Repl hist' cur' [] (st', log ++ [(buf, a)]) (out ++ [Newline])) keys = Running r' /\ map fst (snd (r_state r')) = map fst log ++ buf :: lines_typed [] keys).
      { intros hist' cur' H1 H2. destruct (IH (Repl hist' cur' [] (st', log ++ [(buf, a)]) (out ++ [Newline])) H1 H2 Hf K2) as (r' & R1 & R2). exists r'. split; [exact R1|].
        rewrite R2. cbn [r_state snd r_buf]. rewrite map_app, <- app_assoc. reflexivity. }
      destruct a; [|apply T; assumption|congruence]. destruct (trim buf); [apply T; assumption|]. rewrite c_last_spec.
      destruct (match last_of_list (c_data hist) with Some l => str_eqb l buf | None => false end); [apply T; assumption|]. rewrite push_spec by assumption.
      apply T; cbn [c_cap c_data]; [assumption|rewrite last_n_len; lia].
    + apply IH; assumption.
    + apply IH; assumption.
Qed.

Definition move (up : bool) : key := if up then KUp else KDown.
Lemma up_many : forall k hist cur buf st out, cur <= List.length (c_data hist) -> 0 < k -> k <= cur -> exists s out',
  repl_run f (Repl hist cur buf st out) (repeat KUp k) = Running (Repl hist (cur - k) s st out') /\ nth_error (c_data hist) (cur - k) = Some s.
Proof.
  induction k as [|k IH]; intros hist cur buf st out Hc Hk Hle; [lia|]. cbn [repeat repl_run repl_step]. destruct cur as [|cur]; [lia|].
  unfold c_index. destruct (nth_error (c_data hist) cur) as [s|] eqn:E; [|apply nth_error_None in E; lia].
  destruct k as [|k].
  - exists s, (out ++ [Rewrite s]). split; [cbn [repeat repl_run]; repeat f_equal; lia|]. replace (S cur - 1) with cur by lia. exact E.
  - destruct (IH hist cur s st (out ++ [Rewrite s]) ltac:(lia) ltac:(lia) ltac:(lia)) as (s' & out' & R & N). exists s', out'. split; [rewrite R; repeat f_equal|]; replace (S cur - S (S k)) with (cur - S k) by lia; auto.
Qed.
Lemma up_oldest : forall hist buf st out k, repl_run f (Repl hist 0 buf st out) (repeat KUp k) = Running (Repl hist 0 buf st out).
Proof. induction k as [|k IH]; [reflexivity|]. cbn [repeat repl_run repl_step]. exact IH. Qed.
Lemma down_many : forall k hist cur buf st out, 0 < k -> cur + k <= List.length (c_data hist) -> exists out',
  repl_run f (Repl hist cur buf st out) (repeat KDown k) = Running (Repl hist (cur + k) (match nth_error (c_data hist) (cur + k) with Some s => s | None => [] end) st out').
Proof.
  induction k as [|k IH]; intros hist cur buf st out Hk Hle; [lia|]. cbn [repeat repl_run repl_step]. unfold c_len.
  destruct (Nat.ltb_spec cur (List.length (c_data hist))); [|lia].
  assert (S1 : exists s out1, (if Nat.eqb (S cur) (List.length (c_data hist)) then Running (Repl hist (S cur) [] st (out ++ [Rewrite []]))
     else match c_index (S cur) hist with Ok s => Running (Repl hist (S cur) s st (out ++ [Rewrite s])) | _ => Crashed end) = Running (Repl hist (S cur) s st out1) /\
     s = match nth_error (c_data hist) (S cur) with Some s => s | None => [] end).
  { destruct (Nat.eqb_spec (S cur) (List.length (c_data hist))) as [Q|Q].
    - eexists _, _. split; [reflexivity|]. destruct (nth_error (c_data hist) (S cur)) eqn:N; [|reflexivity]. apply nth_error_Some_length in N || (assert (S cur < List.length (c_data hist)) by (apply nth_error_Some; congruence)); lia.
    - unfold c_index. destruct (nth_error (c_data hist) (S cur)) as [s|] eqn:N; [|apply nth_error_None in N; lia]. eauto. }
  destruct S1 as (s & out1 & -> & Hs). destruct k as [|k].
  - exists out1. cbn [repeat repl_run]. rewrite Hs. replace (cur + 1) with (S cur) by lia. reflexivity.
  - destruct (IH hist (S cur) s st out1 ltac:(lia) ltac:(lia)) as (out' & R). exists out'. rewrite R. replace (cur + S (S k)) with (S cur + S k) by lia. reflexivity.
Qed.
End Typing.

(** ** Lines *)
Definition trim_end (s : str) : str := rev (trim_start (rev s)).
Lemma trim_is : forall s, trim s = trim_end (trim_start s). Proof. reflexivity. Qed.
Lemma trim_start_app : forall a b, trim_start (a ++ b) = match trim_start a with [] => trim_start b | l => l ++ b end.
Proof. induction a as [|x a IH]; intros b; [reflexivity|]. simpl. destruct (is_whitespace x); [apply IH|reflexivity]. Qed.
Lemma trim_end_cons : forall x s, trim_end (x :: s) = match trim_end s with [] => if is_whitespace x then [] else [x] | l => x :: l end.
Proof.
  intros x s. unfold trim_end. simpl. rewrite trim_start_app. destruct (trim_start (rev s)) as [|y l] eqn:E.
  - simpl. destruct (is_whitespace x); reflexivity.
  - rewrite rev_app_distr. simpl. destruct (rev l ++ [y]) eqn:Q; [destruct (rev l); discriminate|reflexivity].
Qed.
Lemma trim_start_twice : forall s, trim_start (trim_start s) = trim_start s.
Proof. induction s as [|x s IH]; [reflexivity|]. simpl. destruct (is_whitespace x) eqn:E; [exact IH|]. simpl. rewrite E. reflexivity. Qed.
Lemma trim_end_twice : forall s, trim_end (trim_end s) = trim_end s.
Proof. intros s. unfold trim_end. rewrite rev_involutive, trim_start_twice. reflexivity. Qed.
Lemma trim_commute : forall s, trim_start (trim_end s) = trim_end (trim_start s).
Proof.
  induction s as [|x s IH]; [reflexivity|]. rewrite trim_end_cons. simpl. destruct (is_whitespace x) eqn:E.
  - destruct (trim_end s) as [|y l] eqn:Q; [rewrite <- IH; reflexivity|]. simpl. rewrite E. exact IH.
  - rewrite trim_end_cons. destruct (trim_end s) as [|y l] eqn:Q; simpl; rewrite E; reflexivity.
Qed.
Lemma trim_of_start : forall s, trim (trim_start s) = trim s.
Proof. intros s. rewrite !trim_is, trim_start_twice. reflexivity. Qed.
Lemma trim_of_end : forall s, trim (trim_end s) = trim s.
Proof. intros s. rewrite !trim_is, trim_commute, trim_end_twice. reflexivity. Qed.
Lemma trim_twice : forall s, trim (trim s) = trim s.
Proof. intros s. rewrite (trim_is s) at 1. rewrite trim_of_end, trim_of_start. reflexivity. Qed.
Lemma trim_start_stop : forall a c b, is_whitespace c = false -> trim_start (a ++ c :: b) = trim_start a ++ c :: b.
Proof. intros a c b H. induction a as [|x a IH]; simpl; [rewrite H; reflexivity|]. destruct (is_whitespace x); [exact IH|reflexivity]. Qed.
Lemma trim_around : forall a c b, is_whitespace c = false -> trim (a ++ c :: b) = trim_start a ++ c :: trim_end b.
Proof.
  intros a c b Hc. rewrite trim_is, trim_start_stop by exact Hc. unfold trim_end. rewrite rev_app_distr. cbn [rev]. rewrite <- app_assoc. cbn [app].
  rewrite trim_start_stop by exact Hc. rewrite rev_app_distr. cbn [rev]. rewrite rev_involutive, <- app_assoc. reflexivity.
Qed.
Lemma trim_start_in : forall x s, In x (trim_start s) -> In x s.
Proof. induction s as [|y s IH]; simpl; [auto|]. destruct (is_whitespace y); [auto|]. auto. Qed.
Lemma trim_end_in : forall x s, In x (trim_end s) -> In x s.
Proof. intros x s H. unfold trim_end in H. apply in_rev in H. apply trim_start_in in H. apply in_rev. exact H. Qed.
Lemma trim_in : forall x s, In x (trim s) -> In x s.
Proof. intros x s H. rewrite trim_is in H. apply trim_end_in in H. apply trim_start_in in H. exact H. Qed.

Lemma split_on_none : forall c s, ~ In c s -> split_on c s = [s].
Proof.
  induction s as [|x s IH]; intros H; [reflexivity|]. simpl. unfold char_eqb. destruct (N.eqb_spec x c) as [E|E]; [exfalso; apply H; left; exact E|].
  rewrite IH by (intros X; apply H; right; exact X). reflexivity.
Qed.
Lemma split_on_app : forall c a b, ~ In c a -> split_on c (a ++ c :: b) = a :: split_on c b.
Proof.
  induction a as [|x a IH]; intros b H; simpl; unfold char_eqb.
  - rewrite N.eqb_refl. reflexivity.
  - destruct (N.eqb_spec x c) as [E|E]; [exfalso; apply H; left; exact E|]. rewrite IH by (intros X; apply H; right; exact X). reflexivity.
Qed.
Lemma split_on_nonempty : forall c s, exists p ps, split_on c s = p :: ps.
Proof. intros c [|x s]; simpl; [eauto|]. destruct (char_eqb x c); [eauto|]. destruct (split_on c s) as [|p ps]; eauto. Qed.
Lemma has_equals : forall s, existsb (char_eqb 61%N) s = true <-> In 61%N s.
Proof.
  intros s. rewrite existsb_exists. split; [intros (x & H & E); apply N.eqb_eq in E; subst; exact H|]. intros H. exists 61%N. auto.
Qed.

Lemma in_split_first : forall s, In 61%N s -> exists a b, s = a ++ 61%N :: b /\ no_equals a.
Proof.
  induction s as [|x s IH]; intros H; [destruct H|]. destruct (N.eq_dec x 61%N) as [->|Hx]; [exists [], s; split; [reflexivity|intros []]|].
  destruct H as [H|H]; [contradiction|]. destruct (IH H) as (a & b & -> & Ha). exists (x :: a), b. split; [reflexivity|]. intros [X|X]; contradiction.
Qed.
Section Loop.
Context {V W : Type}.
Variable E : env.
Variable dbg : bool.
Variable parse : str -> option V.
Variable is_binary : bool.
Notation line := (loop_line (W := W) E dbg parse is_binary).
Notation St := (dctx V W * W * list (reply (V := V)))%type.

Lemma set_ok : forall n v (d : dctx V W), assignable E dbg d n -> exists d', set_variable E dbg n v d = (Ok (get_variable (to_ctx E d) n), d') /\ same_but_variables d d' /\
  forall x, get_variable (to_ctx E d') x = if str_eqb n x then Some v else get_variable (to_ctx E d) x.
Proof.
  clear parse.
  intros n v d [A1 A2]. destruct (set_variable E dbg n v d) as [r d'] eqn:S. exists d'.
  pose proof (perform_frame E dbg (SetVariable n v) d r d' S) as F. cbn beta iota in F.
  destruct (set_variable_result E dbg n v d r d' S) as [(k & -> & ->)|[-> H]].
  - exfalso. unfold set_variable, validate in S. destruct dbg; [rewrite (A1 eq_refl) in S|];
    (destruct (existsb (fun p => eq_ignore_case E (fst p) n) (d_consts d)) eqn:X; [|discriminate]; apply existsb_exists in X; destruct X as ([k0 v0] & X1 & X2); cbn in X2; rewrite (A2 k0 v0 X1) in X2; discriminate).
  - split; [reflexivity|]. split; [|exact H]. unfold same_but_variables. tauto.
Qed.
Lemma set_not_ok : forall n v (d : dctx V W), ~ assignable E dbg d n -> exists k, set_variable E dbg n v d = (Err k, d).
Proof.
  intros n v d A. destruct (set_variable E dbg n v d) as [r d'] eqn:S. destruct (set_variable_result E dbg n v d r d' S) as [(k & -> & ->)|[-> H]]; [eauto|]. exfalso. apply A.
  unfold set_variable, validate in S. split.
  - intros ->. destruct (check_token_name n) as [[]|k|]; congruence.
  - intros k0 v0 Hin. destruct (eq_ignore_case E k0 n) eqn:Q; [|reflexivity]. exfalso.
    assert (X : existsb (fun p => eq_ignore_case E (fst p) n) (d_consts d) = true) by (apply existsb_exists; exists (k0, v0); auto). rewrite X in S.
    destruct (if dbg then check_token_name n else Ok tt); discriminate.
Qed.
Lemma assignable_dec : forall (d : dctx V W) n, assignable E dbg d n \/ ~ assignable E dbg d n.
Proof.
  intros d n. unfold assignable. destruct (existsb (fun p => eq_ignore_case E (fst p) n) (d_consts d)) eqn:X.
  - right. intros [_ H]. apply existsb_exists in X. destruct X as ([k0 v0] & X1 & X2). cbn in X2. rewrite (H k0 v0 X1) in X2. discriminate.
  - assert (C : forall k v, In (k, v) (d_consts d) -> eq_ignore_case E k n = false).
    { intros k v Hin. destruct (eq_ignore_case E k n) eqn:Q; [|reflexivity]. assert (Y : existsb (fun p => eq_ignore_case E (fst p) n) (d_consts d) = true) by (apply existsb_exists; exists (k, v); auto). congruence. }
    destruct dbg; [|left; split; [discriminate|exact C]]. destruct (check_token_name n) as [[]|k|] eqn:Q.
    + left. auto. + right. intros [H _]. specialize (H eq_refl). discriminate. + right. intros [H _]. specialize (H eq_refl). discriminate.
Qed.

Lemma line_exit : forall s (st : St), trim s = lit "exit" -> line s st = (Ok FBreak, st).
Proof. intros s [[d w] out] H. unfold loop_line. rewrite H. reflexivity. Qed.
Lemma not_exit : forall s, In 61%N (trim s) -> str_eqb (trim s) (lit "exit") = false.
Proof.
  intros s H. destruct (str_eqb (trim s) (lit "exit")) eqn:X; [|reflexivity]. apply str_eqb_eq in X. rewrite X in H. cbn in H.
  repeat (destruct H as [H|H]; [discriminate|]). destruct H.
Qed.
Lemma line_assign : forall a b (d : dctx V W) w out, no_equals a -> no_equals b ->
  line (a ++ 61%N :: b) (d, w, out) =
  match parse (trim b) with
  | Some v => match set_variable E dbg (trim a) v d with
              | (Ok _, d') => (Ok FNone, (d', w, out))
              | (Err _, d') => (Ok FNone, (d', w, out ++ [Message]))
              | (Panic, d') => (Panic, (d', w, out))
              end
  | None => (Ok FNone, (d, w, out ++ [Message]))
  end.
Proof.
  intros a b d w out Ha Hb. unfold loop_line. assert (T : trim (a ++ 61%N :: b) = trim_start a ++ 61%N :: trim_end b) by (apply trim_around; reflexivity).
  assert (I : In 61%N (trim (a ++ 61%N :: b))) by (rewrite T; apply in_or_app; right; left; reflexivity).
  rewrite (not_exit _ I). apply has_equals in I. rewrite I, T. rewrite split_on_app by (intros X; apply Ha; apply trim_start_in; exact X).
  rewrite split_on_none by (intros X; apply Hb; apply trim_end_in; exact X). cbn [map]. rewrite trim_of_start, trim_of_end. reflexivity.
Qed.
Lemma line_many : forall a b c (st : St), line (a ++ 61%N :: b ++ 61%N :: c) st = (Ok FNone, (fst st, snd st ++ [Message])).
Proof.
  intros a b c [[d w] out]. unfold loop_line. set (s := a ++ 61%N :: b ++ 61%N :: c).
  assert (T : trim s = trim_start a ++ 61%N :: (b ++ 61%N :: trim_end c)).
  { unfold s. assert (X : a ++ 61%N :: b ++ 61%N :: c = (a ++ 61%N :: b) ++ 61%N :: c) by (rewrite <- app_assoc; reflexivity). rewrite X.
    rewrite trim_around by reflexivity. rewrite trim_start_stop by reflexivity. rewrite <- app_assoc. reflexivity. }
  assert (I : In 61%N (trim s)) by (rewrite T; apply in_or_app; right; left; reflexivity). rewrite (not_exit _ I). pose proof I as I'. apply has_equals in I'. rewrite I'.
  assert (L : 3 <= List.length (split_on 61%N (trim s))).
  { rewrite T. assert (C : forall x y, List.length (split_on 61%N (x ++ 61%N :: y)) = List.length (split_on 61%N x) + List.length (split_on 61%N y)).
    { induction x as [|h x IH]; intros y; [reflexivity|]. cbn [app split_on]. unfold char_eqb. destruct (N.eqb h 61); [cbn [List.length]; rewrite IH; reflexivity|].
      specialize (IH y). destruct (split_on_nonempty 61%N (x ++ 61%N :: y)) as (p & ps & E1). destruct (split_on_nonempty 61%N x) as (q & qs & E2). rewrite E1, E2 in *. cbn [List.length] in *. exact IH. }
    rewrite !C. destruct (split_on_nonempty 61%N (trim_start a)) as (? & ? & ->). destruct (split_on_nonempty 61%N b) as (? & ? & ->). destruct (split_on_nonempty 61%N (trim_end c)) as (? & ? & ->). cbn [List.length]. lia. }
  destruct (split_on 61%N (trim s)) as [|p [|q [|r l]]]; cbn [List.length] in L; try lia. reflexivity.
Qed.
Lemma line_eval : forall s (d : dctx V W) w out, no_equals s -> trim s <> lit "exit" ->
  line s (d, w, out) =
  match eval (to_ctx E d) parse (split_into_tokens (repl_splitter is_binary)) dbg (trim s) w with
  | (Ok v, w') => match set_variable E dbg result_name v d with
                  | (Ok _, d') => (Ok FNone, (d', w', out ++ [Result v]))
                  | (Err _, d') => (Ok FNone, (d', w', out ++ [Result v; Message]))
                  | (Panic, d') => (Panic, (d', w', out))
                  end
  | (Err _, w') => (Ok FNone, (d, w', out ++ [Message]))
  | (Panic, w') => (Panic, (d, w', out))
  end.
Proof.
  intros s d w out Hs Hx. unfold loop_line. destruct (str_eqb (trim s) (lit "exit")) eqn:X; [apply str_eqb_eq in X; contradiction|].
  destruct (existsb (char_eqb 61%N) (trim s)) eqn:Y; [apply has_equals in Y; apply trim_in in Y; contradiction|]. reflexivity.
Qed.
(** Every line is of one of these kinds. *)
Lemma line_kinds : forall s, trim s = lit "exit" \/ (exists a b : str, s = a ++ 61%N :: b /\ no_equals a /\ no_equals b) \/
  (exists a b c : str, s = a ++ 61%N :: b ++ 61%N :: c) \/ (no_equals s /\ trim s <> lit "exit").
Proof.
  intros s. destruct (in_dec N.eq_dec 61%N s) as [H|H].
  - destruct (in_split_first s H) as (a & b & -> & Ha). destruct (in_dec N.eq_dec 61%N b) as [Hb|Hb].
    + apply in_split in Hb. destruct Hb as (b1 & b2 & ->). right. right. left. eauto.
    + right. left. exists a, b. auto.
  - destruct (str_eqb (trim s) (lit "exit")) eqn:X; [apply str_eqb_eq in X; auto|]. right. right. right. split; [exact H|]. intros Y. rewrite Y, str_eqb_refl in X. discriminate.
Qed.

(** What one line does. *)
Lemma same_refl : forall d : dctx V W, same_but_variables d d. Proof. repeat split. Qed.
Lemma same_trans : forall d1 d2 d3 : dctx V W, same_but_variables d1 d2 -> same_but_variables d2 d3 -> same_but_variables d1 d3.
Proof. unfold same_but_variables. intros d1 d2 d3 (A1 & A2 & A3 & A4 & A5) (B1 & B2 & B3 & B4 & B5). repeat split; congruence. Qed.
Lemma same_assignable : forall (d d' : dctx V W) n, same_but_variables d d' -> assignable E dbg d n -> assignable E dbg d' n.
Proof. unfold assignable. intros d d' n (-> & _) H. exact H. Qed.

Lemma line_effect : forall s (d : dctx V W) w r d' w' out, assignable E dbg d result_name -> line s (d, w, []) = (r, (d', w', out)) ->
  (r = Ok FBreak /\ d' = d /\ w' = w /\ out = []) \/
  (r = Panic) \/
  (r = Ok FNone /\ same_but_variables d d' /\ exists wr, wrote parse (s, out) wr /\ forall x, get_variable (to_ctx E d') x = match wr with Some (n, v) => if str_eqb n x then Some v else get_variable (to_ctx E d) x | None => get_variable (to_ctx E d) x end).
Proof.
  intros s d w r d' w' out A H. destruct (line_kinds s) as [K|[(a & b & -> & Ha & Hb)|[(a & b & c & ->)|[K1 K2]]]].
  - rewrite (line_exit s (d, w, []) K) in H. injection H as <- <- <- <-. auto.
  - rewrite (line_assign a b d w [] Ha Hb) in H. right. right. destruct (parse (trim b)) as [v|] eqn:P.
    + destruct (assignable_dec d (trim a)) as [B|B].
      * destruct (set_ok (trim a) v d B) as (d1 & S & Sm & G). rewrite S in H. injection H as <- <- <- <-. split; [reflexivity|]. split; [exact Sm|].
        exists (Some (trim a, v)). split; [constructor; assumption|exact G].
      * destruct (set_not_ok (trim a) v d B) as (k & S). rewrite S in H. injection H as <- <- <- <-. split; [reflexivity|]. split; [apply same_refl|].
        exists None. split; [constructor|reflexivity].
    + injection H as <- <- <- <-. split; [reflexivity|]. split; [apply same_refl|]. exists None. split; [constructor|reflexivity].
  - rewrite line_many in H. injection H as <- <- <- <-. right. right. split; [reflexivity|]. split; [apply same_refl|]. exists None. split; [constructor|reflexivity].
  - rewrite (line_eval s d w [] K1 K2) in H. right.
    destruct (eval (to_ctx E d) parse (split_into_tokens (repl_splitter is_binary)) dbg (trim s) w) as [[v|k|] w1].
    + right. destruct (set_ok result_name v d A) as (d1 & S & Sm & G). rewrite S in H. injection H as <- <- <- <-. split; [reflexivity|]. split; [exact Sm|].
      exists (Some (result_name, v)). split; [constructor|exact G].
    + right. injection H as <- <- <- <-. split; [reflexivity|]. split; [apply same_refl|]. exists None. split; [constructor|reflexivity].
    + left. injection H as <- _ _ _. reflexivity.
Qed.
Lemma start_assignable : forall zero (d0 d : dctx V W), loop_start E dbg zero d0 = Ok d -> same_but_variables d0 d /\ assignable E dbg d result_name /\ forall x, get_variable (to_ctx E d) x = if str_eqb result_name x then Some zero else get_variable (to_ctx E d0) x.
Proof.
  intros zero d0 d H. unfold loop_start in H. destruct (assignable_dec d0 result_name) as [A|A].
  - destruct (set_ok result_name zero d0 A) as (d1 & S & Sm & G). rewrite S in H. injection H as <-. split; [exact Sm|]. split; [|exact G]. eapply same_assignable; eassumption.
  - destruct (set_not_ok result_name zero d0 A) as (k & S). rewrite S in H. discriminate.
Qed.
Notation session := (session (W := W) E dbg parse is_binary).
Lemma session_effect : forall d w log d' w', session d w log d' w' -> assignable E dbg d result_name ->
  same_but_variables d d' /\ exists writes, Forall2 (wrote parse) log writes /\ forall x, get_variable (to_ctx E d') x = last_written x writes (get_variable (to_ctx E d) x).
Proof.
  intros d w log d' w' S. induction S as [d w|d w s rs d1 w1 log d2 w2 H _ IH]; intros A.
  - split; [apply same_refl|]. exists []. split; [constructor|reflexivity].
  - destruct (line_effect s d w _ _ _ _ A H) as [(X & _)|[X|(_ & Sm & wr & Hw & G)]]; try discriminate.
    destruct (IH (same_assignable _ _ _ Sm A)) as (Sm2 & writes & F & G2). split; [eapply same_trans; eassumption|].
    exists (wr :: writes). split; [constructor; assumption|]. intros x. rewrite G2, G. destruct wr as [[n v]|]; reflexivity.
Qed.
Lemma session_snoc : forall d w log d' w' s rs d1 w1, session d w log d' w' -> line s (d', w', []) = (Ok FNone, (d1, w1, rs)) -> session d w (log ++ [(s, rs)]) d1 w1.
Proof.
  intros d w log d' w' s rs d1 w1 S H. induction S as [d w|d w s' rs' d2 w2 log d3 w3 H1 _ IH]; cbn [app].
  - econstructor; [exact H|constructor].
  - econstructor; [exact H1|apply IH; exact H].
Qed.
(** Replies are only appended. *)
Lemma line_out : forall s (d : dctx V W) w out r d' w' out', line s (d, w, out) = (r, (d', w', out')) -> exists rs, line s (d, w, []) = (r, (d', w', rs)) /\ out' = out ++ rs.
Proof.
  intros s d w out r d' w' out' H. destruct (line_kinds s) as [K|[(a & b & -> & Ha & Hb)|[(a & b & c & ->)|[K1 K2]]]].
  - rewrite (line_exit s _ K) in H. rewrite (line_exit s _ K). injection H as <- <- <- <-. exists []. rewrite app_nil_r. auto.
  - rewrite (line_assign a b d w _ Ha Hb) in H. rewrite (line_assign a b d w _ Ha Hb). destruct (parse (trim b)) as [v|]; [destruct (set_variable E dbg (trim a) v d) as [[x|k|] d1]|]; injection H as <- <- <- <-; eexists; (split; [reflexivity|]); rewrite ?app_nil_r; reflexivity.
  - rewrite line_many in H. rewrite line_many. injection H as <- <- <- <-. eexists. split; reflexivity.
  - rewrite (line_eval s d w _ K1 K2) in H. rewrite (line_eval s d w _ K1 K2). destruct (eval (to_ctx E d) parse (split_into_tokens (repl_splitter is_binary)) dbg (trim s) w) as [[v|k|] w1];
      [destruct (set_variable E dbg result_name v d) as [[x|k|] d1]| |]; injection H as <- <- <- <-; eexists; (split; [reflexivity|]); rewrite ?app_nil_r; reflexivity.
Qed.

(** The whole program. *)
Definition in_session (d0 : dctx V W) (w0 : W) (r : repl (St * list (str * flow))) (stop : list (str * flow)) : Prop :=
  exists log tr, snd (r_state r) = log ++ stop /\ log = map (fun p => (fst p, FNone)) tr /\ session d0 w0 tr (fst (fst (fst (r_state r)))) (snd (fst (fst (r_state r)))) /\ snd (fst (r_state r)) = flat_map snd tr.
Definition whole (d0 : dctx V W) w0 (o : outcome (St * list (str * flow))) : Prop :=
  match o with
  | Running r => in_session d0 w0 r []
  | Stopped r => in_session d0 w0 r [] \/ exists s, trim s = lit "exit" /\ in_session d0 w0 r [(s, FBreak)]
  | Crashed => True
  end.
Lemma step_whole : forall d0 w0 r k, in_session d0 w0 r [] -> whole d0 w0 (repl_step (logged line) r k).
Proof.
  intros d0 w0 [hist cur buf [[[d w] out] log] o] k S. assert (SS := S). destruct S as (lg & tr & S1 & S2 & S3 & S4). cbn [r_state fst snd] in *. rewrite app_nil_r in S1. subst log.
  destruct k as [| | | |c| | |]; cbn [repl_step].
  - destruct buf; exact SS.
  - unfold logged. cbn [fst snd]. destruct (line buf (d, w, out)) as [[a|k|] [[d1 w1] out1]] eqn:L; [|exact I|exact I].
    destruct (line_out buf d w out _ _ _ _ L) as (rs & L0 & ->). destruct a.
    + assert (T : forall h c, in_session d0 w0 (Repl h c [] (d1, w1, out ++ rs, lg ++ [(buf, FNone)]) (o ++ [Newline])) []).
      { intros h c. exists (lg ++ [(buf, FNone)]), (tr ++ [(buf, rs)]). cbn [r_state fst snd]. rewrite app_nil_r. split; [reflexivity|]. split; [rewrite S2, map_app; reflexivity|].
        split; [eapply session_snoc; eassumption|]. rewrite flat_map_app, S4. cbn. rewrite app_nil_r. reflexivity. }
      destruct (trim buf); [apply T|]. destruct (if match c_last hist with Some l => str_eqb l buf | None => false end then Ok hist else c_push buf hist); [apply T|exact I|exact I].
    + exfalso. destruct (line_kinds buf) as [K|[(x & y & -> & Ha & Hb)|[(x & y & z & ->)|[K1 K2]]]].
      * rewrite (line_exit _ _ K) in L0. discriminate.
      * rewrite line_assign in L0 by assumption. destruct (parse (trim y)) as [v|]; [destruct (set_variable E dbg (trim x) v d) as [[?|?|] ?]|]; discriminate.
      * rewrite line_many in L0. discriminate.
      * rewrite line_eval in L0 by assumption. destruct (eval (to_ctx E d) parse (split_into_tokens (repl_splitter is_binary)) dbg (trim buf) w) as [[v|k|] ?]; [destruct (set_variable E dbg result_name v d) as [[?|?|] ?]| |]; discriminate.
    + right. exists buf. destruct (line_kinds buf) as [K|[(x & y & -> & Ha & Hb)|[(x & y & z & ->)|[K1 K2]]]].
      * split; [exact K|]. rewrite (line_exit _ _ K) in L0. injection L0 as <- <- <-. exists lg, tr. cbn [r_state fst snd]. rewrite app_nil_r. auto.
      * rewrite line_assign in L0 by assumption. destruct (parse (trim y)) as [v|]; [destruct (set_variable E dbg (trim x) v d) as [[?|?|] ?]|]; discriminate.
      * rewrite line_many in L0. discriminate.
      * rewrite line_eval in L0 by assumption. destruct (eval (to_ctx E d) parse (split_into_tokens (repl_splitter is_binary)) dbg (trim buf) w) as [[v|k|] ?]; [destruct (set_variable E dbg result_name v d) as [[?|?|] ?]| |]; discriminate.
  - destruct cur; [exact SS|]. destruct (c_index cur hist); [exact SS|exact I|exact I].
  - destruct (Nat.ltb cur (c_len hist)); [|exact SS]. destruct (Nat.eqb (S cur) (c_len hist)); [exact SS|]. destruct (c_index (S cur) hist); [exact SS|exact I|exact I].
  - exact SS.
  - left. exact SS.
  - exact SS.
  - left. exact SS.
Qed.
Lemma run_whole : forall d0 w0 keys r, in_session d0 w0 r [] -> whole d0 w0 (repl_run (logged line) r keys).
Proof.
  intros d0 w0. induction keys as [|k keys IH]; intros r S; [exact S|]. cbn [repl_run]. pose proof (step_whole d0 w0 r k S) as X. destruct (repl_step (logged line) r k); [apply IH; exact X|exact X..].
Qed.
End Loop.

(** White space around a line. *)
Lemma trim_start_split : forall s, exists b, s = b ++ trim_start s /\ blank b.
Proof.
  induction s as [|x s (b & IH & Hb)]; [exists []; split; [reflexivity|constructor]|]. cbn [trim_start]. destruct (is_whitespace x) eqn:X.
  - exists (x :: b). split; [cbn; congruence|constructor; assumption].
  - exists []. split; [reflexivity|constructor].
Qed.
Lemma trim_split : forall s, exists a b, s = a ++ trim s ++ b /\ blank a /\ blank b.
Proof.
  intros s. destruct (trim_start_split s) as (a & Ha & Ba). destruct (trim_start_split (rev (trim_start s))) as (b & Hb & Bb). exists a, (rev b). split; [|split; [exact Ba|apply Forall_rev; exact Bb]].
  rewrite Ha at 1. f_equal. unfold trim. rewrite <- rev_app_distr, <- Hb, rev_involutive. reflexivity.
Qed.
