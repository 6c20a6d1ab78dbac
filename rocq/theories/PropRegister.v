(** * C23 again: when registering succeeds, is refused and panics, for functions and both kinds of operators *)
From Coq Require Import List NArith ZArith Bool Arith Lia String.
From Verif Require Import ModelBase ModelContext ModelText ModelDefault ModelStr ModelNum ModelStd SpecText ProofText ProofDefault.
Import ListNotations.

(** What decides: in debug builds the name must be legal, and in all builds free, or else there is an error; each alias must be free, also of the aliases before it, or else the
    call panics. *)
Definition accepted (dbg : bool) (taken : str -> Prop) (n : str) : Prop := (dbg = true -> valid_name n) /\ ~ taken n.
Definition all_free (E : env) (taken : str -> Prop) (aliases : list str) : Prop :=
  (forall a, In a aliases -> ~ taken a) /\ ForallOrdPairs (fun a b => eq_ignore_case E b a = false) aliases.
Definition outcome (E : env) (dbg : bool) (taken : str -> Prop) (aliases : list str) (n : str) (r : res unit) : Prop :=
  (r = Ok tt <-> accepted dbg taken n /\ all_free E taken aliases) /\ (r = Panic <-> accepted dbg taken n /\ ~ all_free E taken aliases) /\
  ((exists k, r = Err k) <-> ~ accepted dbg taken n) /\ ((dbg = true -> valid_name n) -> taken n -> r = Err Unknown_).

Lemma register_outcome : forall A (E : env) dbg aliases (f : A) n m, Forall ascii_string aliases ->
  outcome E dbg (fun q => mget (key_match E) m q <> None) aliases n (fst (register E dbg aliases f n m)).
Proof.
  intros A E dbg aliases f n m Ha.
  assert (P : ForallOrdPairs (fun a b => key_match E b a = false) aliases <-> ForallOrdPairs (fun a b => eq_ignore_case E b a = false) aliases).
  { clear -Ha. induction Ha as [|a l Hx Ha IH]; [split; constructor|]. split; intros H; inversion H as [|? ? H1 H2]; subst;
      (constructor; [|apply IH; assumption]); rewrite Forall_forall in *; intros b Hb; specialize (H1 b Hb);
      [rewrite <- (key_match_ascii E) | rewrite (key_match_ascii E)]; auto. }
  assert (X : forall q, mget (key_match E) m q = None <-> ~ mget (key_match E) m q <> None) by (intros q; destruct (mget (key_match E) m q); split; intros H; [discriminate|exfalso; apply H; discriminate|intros Q; exact (Q eq_refl)|reflexivity]).
  assert (F : (forall a, In a aliases -> mget (key_match E) m a = None) /\ ForallOrdPairs (fun a b => key_match E b a = false) aliases <-> all_free E (fun q => mget (key_match E) m q <> None) aliases).
  { unfold all_free. rewrite P. split; intros [H1 H2]; (split; [|exact H2]); intros a Ia; apply (X a), H1, Ia. }
  assert (A1 : (dbg = true -> valid_name n) /\ mget (key_match E) m n = None <-> accepted dbg (fun q => mget (key_match E) m q <> None) n) by (unfold accepted; pose proof (X n) as Xn; cbv beta; tauto).
  pose proof (register_iff E dbg aliases f n m) as I. pose proof (register_panic_iff E dbg aliases f n m) as J.
  assert (I' : fst (register E dbg aliases f n m) = Ok tt <-> accepted dbg (fun q => mget (key_match E) m q <> None) n /\ all_free E (fun q => mget (key_match E) m q <> None) aliases) by (rewrite I, <- F, <- A1; tauto).
  assert (J' : fst (register E dbg aliases f n m) = Panic <-> accepted dbg (fun q => mget (key_match E) m q <> None) n /\ ~ all_free E (fun q => mget (key_match E) m q <> None) aliases) by (rewrite J, <- F, <- A1; tauto).
  assert (K : accepted dbg (fun q => mget (key_match E) m q <> None) n -> fst (register E dbg aliases f n m) = Ok tt \/ fst (register E dbg aliases f n m) = Panic).
  { intros H. apply A1 in H. destruct H as [V N]. apply validate_iff in V. unfold register. rewrite V, N. cbn [is_some].
    pose proof (insert_aliases_cases E aliases f m) as C. destruct (insert_aliases E aliases f m) as [[[]|k|] m1]; cbn [fst]; auto. }
  split; [exact I'|]. split; [exact J'|]. split.
  - split.
    + intros [k Ek] H. destruct (K H); congruence.
    + intros H. destruct (fst (register E dbg aliases f n m)) as [[]|k|]; [exfalso; apply H, (proj1 I' eq_refl)|eauto|exfalso; apply H, (proj1 J' eq_refl)].
  - intros V T. apply validate_iff in V. unfold register. rewrite V. destruct (mget (key_match E) m n); [reflexivity|congruence].
Qed.

(** The outcome of each of the three calls, exactly. *)
Theorem C23_outcome : forall V W (E : env) (dbg : bool) n (d : dctx V W),
  (forall f, Forall ascii_string (fn_aliases f) -> outcome E dbg (fun q => get_function (to_ctx E d) q <> None) (fn_aliases f) n (fst (add_function_as E dbg f n d))) /\
  (forall f, Forall ascii_string (uf_aliases f) -> outcome E dbg (fun q => get_unary (to_ctx E d) q <> None) (uf_aliases f) n (fst (add_unary_function_as E dbg f n d))) /\
  (forall f, Forall ascii_string (bf_aliases f) -> outcome E dbg (fun q => get_binary (to_ctx E d) q <> None) (bf_aliases f) n (fst (add_binary_function_as E dbg f n d))).
Proof.
  intros V W E dbg n d. split; [|split]; intros f Ha; [unfold add_function_as; pose proof (register_outcome _ E dbg (fn_aliases f) f n (d_funs d) Ha) as R; destruct (register E dbg (fn_aliases f) f n (d_funs d))
    | unfold add_unary_function_as; pose proof (register_outcome _ E dbg (uf_aliases f) f n (d_unary d) Ha) as R; destruct (register E dbg (uf_aliases f) f n (d_unary d))
    | unfold add_binary_function_as; pose proof (register_outcome _ E dbg (bf_aliases f) f n (d_binary d) Ha) as R; destruct (register E dbg (bf_aliases f) f n (d_binary d))]; exact R.
Qed.
Print Assumptions C23_outcome.

(** All three outcomes happen: a new name, a taken one, and a new one with an alias that is taken or given twice. *)
Definition one_op (name : string) (aliases : list str) : bfunc Z unit := BFunc (lit name) aliases 1 LeftA (fun x _ : Z => @ret unit Z x).
Example C23_outcome_case : let add f := fst (add_binary_function_as std_env true f (bf_name f) (std plain_config)) in
  add (one_op "nand" [lit "~"]) = Ok tt /\ add (one_op "+" []) = Err Unknown_ /\ add (one_op "nand" [lit "+"]) = Panic /\
  add (one_op "nand" [lit "sheffer"; lit "Sheffer"]) = Panic /\ add (one_op "n and" []) = Err InvalidInput.
Proof. repeat (split; [vm_compute; reflexivity|]). vm_compute. reflexivity. Qed.
