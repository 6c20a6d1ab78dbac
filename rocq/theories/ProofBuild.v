(** * Contexts built by a list of registrations of distinct ASCII names *)
From Coq Require Import List NArith ZArith Bool Arith Lia.
From Verif Require Import ModelBase ModelContext ModelText ModelDefault ModelFloat ModelNum ModelOps SpecText ProofText ProofDefault.
Import ListNotations.

Inductive step (V W : Type) :=
| SConst (name : str) (v : V)
| SFun (f : func V W)
| SUn (f : ufunc V W)
| SBin (f : bfunc V W).
Arguments SConst {V W}. Arguments SFun {V W}. Arguments SUn {V W}. Arguments SBin {V W}.

(** Names that differ from each other in more than ASCII case, decidably. *)
Definition low (s : str) : str := map to_ascii_lowercase s.
Definition nameb (s : str) : bool :=
  match s with [] => false | _ => forallb (fun c => (c <? 128)%N && negb (is_whitespace c) && negb (is_control c)) s end.
Fixpoint distinctb (l : list str) : bool :=
  match l with [] => true | s :: l' => forallb (fun t => negb (str_eqb (low s) (low t))) l' && distinctb l' end.
Definition namesb (l : list str) : bool := forallb nameb l && distinctb l.

Lemma nameb_ascii : forall s, nameb s = true -> ascii_string s.
Proof.
  intros s H. apply Forall_forall. intros c Hc. destruct s as [|x s]; [destruct Hc|]. unfold nameb in H. rewrite forallb_forall in H.
  apply H in Hc. apply andb_true_iff in Hc. destruct Hc as [Hc _]. apply andb_true_iff in Hc. destruct Hc as [Hc _]. apply N.ltb_lt. exact Hc.
Qed.
Lemma nameb_valid : forall s, nameb s = true -> valid_name s.
Proof.
  intros s H. destruct s as [|x s]; [discriminate|]. unfold nameb in H. rewrite forallb_forall in H.
  assert (G : forall c, In c (x :: s) -> is_whitespace c = false /\ is_control c = false).
  { intros c Hc. apply H in Hc. apply andb_true_iff in Hc. destruct Hc as [Hc H2]. apply andb_true_iff in Hc. destruct Hc as [_ H1].
    rewrite negb_true_iff in H1, H2. auto. }
  split; [apply Exists_cons_hd; apply G; left; reflexivity|]. split; apply Forall_forall; intros c Hc; apply G; exact Hc.
Qed.

Section Build.
Context {V W : Type}.
Variable E : env.
Variable dbg : bool.
Notation D := (dctx V W).
Notation km := (key_match E).

Lemma km_low : forall a b, nameb a = true -> nameb b = true -> km a b = str_eqb (low a) (low b).
Proof.
  intros a b Ha Hb. apply nameb_ascii in Ha, Hb. apply eq_true_iff_eq. rewrite str_eqb_eq. unfold low. rewrite fold_alike. split.
  - intros H. apply key_match_eq in H. eapply ascii_eq_ic; eassumption.
  - apply key_match_self.
Qed.

Definition perf (s : step V W) : D -> res unit * D :=
  match s with
  | SConst n v => add_constant E dbg n v
  | SFun f => add_function E dbg f
  | SUn f => add_unary_function E dbg f
  | SBin f => add_binary_function E dbg f
  end.

Definition consts_of (l : list (step V W)) : list (str * V) := flat_map (fun s => match s with SConst n v => [(n, v)] | _ => [] end) l.
Definition funs_of (l : list (step V W)) : list (str * func V W) :=
  flat_map (fun s => match s with SFun f => map (fun a => (a, f)) (fn_aliases f) ++ [(fn_name f, f)] | _ => [] end) l.
Definition uns_of (l : list (step V W)) : list (str * ufunc V W) :=
  flat_map (fun s => match s with SUn f => map (fun a => (a, f)) (uf_aliases f) ++ [(uf_name f, f)] | _ => [] end) l.
Definition bins_of (l : list (step V W)) : list (str * bfunc V W) :=
  flat_map (fun s => match s with SBin f => map (fun a => (a, f)) (bf_aliases f) ++ [(bf_name f, f)] | _ => [] end) l.
Definition names_ok {A} (l : list (str * A)) : bool := namesb (map fst l).
Definition steps_ok (l : list (step V W)) : bool :=
  names_ok (consts_of l) && names_ok (funs_of l) && names_ok (uns_of l) && names_ok (bins_of l).

Lemma distinct_app : forall a b, distinctb (a ++ b) = true -> distinctb a = true /\ distinctb b = true /\
  (forall x y, In x a -> In y b -> str_eqb (low x) (low y) = false).
Proof.
  induction a as [|x a IH]; intros b H; simpl in *; [split; [reflexivity|split; [exact H|intros x y []]]|].
  apply andb_true_iff in H. destruct H as [H1 H2]. destruct (IH _ H2) as (Ha & Hb & Hab). rewrite forallb_app in H1.
  apply andb_true_iff in H1. destruct H1 as [H1 H1']. split; [rewrite H1, Ha; reflexivity|]. split; [exact Hb|].
  intros z y [<-|Hz] Hy; [|auto]. rewrite forallb_forall in H1'. apply negb_true_iff. apply H1'. exact Hy.
Qed.
Lemma names_app : forall A (a b : list (str * A)), names_ok (a ++ b) = true -> names_ok a = true /\ names_ok b = true /\
  (forall x y, In x (map fst a) -> In y (map fst b) -> km y x = false).
Proof.
  intros A a b H. unfold names_ok, namesb in *. rewrite map_app, forallb_app in H. apply andb_true_iff in H. destruct H as [H1 H2].
  apply andb_true_iff in H1. destruct H1 as [Na Nb]. destruct (distinct_app _ _ H2) as (Da & Db & Dab). rewrite Na, Nb, Da, Db.
  split; [reflexivity|]. split; [reflexivity|]. intros x y Hx Hy. rewrite forallb_forall in Na, Nb. rewrite km_low by auto.
  rewrite str_eqb_sym. auto.
Qed.

Lemma reg_ok : forall A (m : list (str * A)) aliases f name,
  names_ok (m ++ map (fun a => (a, f)) aliases ++ [(name, f)]) = true ->
  register E dbg aliases f name m = (Ok tt, m ++ map (fun a => (a, f)) aliases ++ [(name, f)]).
Proof.
  intros A m aliases f name H. destruct (names_app _ _ _ H) as (Hm & Hx & Hd). destruct (names_app _ _ _ Hx) as (Ha & Hn & Hd2).
  assert (Hnone : forall n, In n (aliases ++ [name]) -> mget km m n = None).
  { intros n Hin. apply mget_none. apply Forall_forall. intros [k v] Hk. apply Hd; [apply in_map with (f := fst) in Hk; exact Hk|].
    rewrite map_app, map_map. simpl. rewrite map_id. exact Hin. }
  assert (Hord : ForallOrdPairs (fun a b => km b a = false) aliases).
  { clear -Ha. unfold names_ok, namesb in Ha. rewrite map_map in Ha. simpl in Ha. rewrite map_id in Ha. apply andb_true_iff in Ha.
    destruct Ha as [Hn Hd]. rewrite forallb_forall in Hn. induction aliases as [|a l IH]; constructor.
    - apply Forall_forall. intros b Hb. simpl in Hd. apply andb_true_iff in Hd. destruct Hd as [Hd _]. rewrite forallb_forall in Hd.
      rewrite km_low; [|apply Hn; right; exact Hb|apply Hn; left; reflexivity]. rewrite str_eqb_sym. apply negb_true_iff. apply Hd. exact Hb.
    - apply IH; [intros x Hx; apply Hn; right; exact Hx|]. simpl in Hd. apply andb_true_iff in Hd. apply Hd. }
  assert (Hv : dbg = true -> valid_name name).
  { intros _. unfold names_ok, namesb in Hn. simpl in Hn. rewrite !andb_true_r in Hn. apply nameb_valid. exact Hn. }
  unfold register. rewrite (proj2 (validate_iff dbg name) Hv). rewrite (Hnone name) by (apply in_or_app; right; left; reflexivity). simpl.
  assert (Hi : fst (insert_aliases E aliases f m) = Ok tt).
  { apply insert_aliases_iff. split; [|exact Hord]. intros a Hin. apply Hnone. apply in_or_app. left. exact Hin. }
  destruct (insert_aliases E aliases f m) as [r m'] eqn:Ei. simpl in Hi. subst r. apply insert_aliases_ok in Ei. subst m'.
  f_equal. rewrite mput_fresh; [rewrite <- app_assoc; reflexivity|]. rewrite mget_app, (Hnone name) by (apply in_or_app; right; left; reflexivity).
  apply mget_none. apply Forall_forall. intros [k v] Hk. apply Hd2; [apply in_map with (f := fst) in Hk; exact Hk|left; reflexivity].
Qed.

Lemma build_steps : forall l (d : D), d_vars d = [] ->
  names_ok (d_consts d ++ consts_of l) = true -> names_ok (d_funs d ++ funs_of l) = true ->
  names_ok (d_unary d ++ uns_of l) = true -> names_ok (d_binary d ++ bins_of l) = true ->
  build (map perf l) d =
    Ok (DCtx [] (d_consts d ++ consts_of l) (d_funs d ++ funs_of l) (d_unary d ++ uns_of l) (d_binary d ++ bins_of l) (d_config d)).
Proof.
  induction l as [|s l IH]; intros d Hv Hc Hf Hu Hb.
  - simpl. rewrite !app_nil_r. destruct d. simpl in *. subst. reflexivity.
  - destruct s as [n v|f|f|f]; cbn [map build perf consts_of funs_of uns_of bins_of flat_map app] in *.
    + assert (A : add_constant E dbg n v d = (Ok tt, DCtx [] (d_consts d ++ [(n, v)]) (d_funs d) (d_unary d) (d_binary d) (d_config d))).
      { unfold add_constant. change ((n, v) :: flat_map _ l) with ([(n, v)] ++ consts_of l) in Hc. rewrite app_assoc in Hc.
        destruct (names_app _ _ _ Hc) as (Hc1 & _ & _). destruct (names_app _ _ _ Hc1) as (_ & Hn & Hd).
        assert (Hval : dbg = true -> valid_name n).
        { intros _. unfold names_ok, namesb in Hn. simpl in Hn. rewrite !andb_true_r in Hn. apply nameb_valid. exact Hn. }
        rewrite (proj2 (validate_iff dbg n) Hval), Hv. simpl. rewrite mput_fresh; [reflexivity|]. apply mget_none. apply Forall_forall.
        intros [k u] Hk. apply Hd; [apply in_map with (f := fst) in Hk; exact Hk|left; reflexivity]. }
      rewrite A. change ((n, v) :: flat_map _ l) with ([(n, v)] ++ consts_of l) in *. rewrite app_assoc in *. rewrite IH; auto.
    + fold (funs_of l) in Hf |- *. rewrite app_assoc in Hf |- *. destruct (names_app _ _ _ Hf) as (Hf1 & _ & _).
      unfold add_function, add_function_as. rewrite reg_ok by exact Hf1. rewrite IH; simpl; auto.
    + fold (uns_of l) in Hu |- *. rewrite app_assoc in Hu |- *. destruct (names_app _ _ _ Hu) as (Hf1 & _ & _).
      unfold add_unary_function, add_unary_function_as. rewrite reg_ok by exact Hf1. rewrite IH; simpl; auto.
    + fold (bins_of l) in Hb |- *. rewrite app_assoc in Hb |- *. destruct (names_app _ _ _ Hb) as (Hf1 & _ & _).
      unfold add_binary_function, add_binary_function_as. rewrite reg_ok by exact Hf1. rewrite IH; simpl; auto.
Qed.

Lemma build_ctx : forall l cf, steps_ok l = true ->
  build (map perf l) (with_config cf) = Ok (DCtx [] (consts_of l) (funs_of l) (uns_of l) (bins_of l) cf).
Proof.
  intros l cf H. unfold steps_ok in H. apply andb_true_iff in H. destruct H as [H Hb]. apply andb_true_iff in H. destruct H as [H Hu].
  apply andb_true_iff in H. destruct H as [Hc Hf]. apply build_steps; auto.
Qed.

(** Looking up an entry by its position. *)
Lemma mget_nth : forall A (m : list (str * A)) i k f q, names_ok m = true -> nth_error m i = Some (k, f) -> ascii_alike q k -> mget km m q = Some f.
Proof.
  intros A. induction m as [|[k0 f0] m IH]; intros i k f q Hn Hi Hq; [destruct i; discriminate|]. rewrite mget_cons.
  change ((k0, f0) :: m) with ([(k0, f0)] ++ m) in Hn. destruct (names_app _ _ _ Hn) as (_ & Hm & Hd). destruct i as [|i].
  - simpl in Hi. injection Hi as -> ->. rewrite key_match_self by exact Hq. reflexivity.
  - simpl in Hi. rewrite (key_match_alike E q k k0 k0) by (try exact Hq; apply alike_refl).
    rewrite Hd; [eauto|left; reflexivity|]. apply nth_error_In in Hi. apply in_map with (f := fst) in Hi. exact Hi.
Qed.
Lemma mget_in : forall A (m : list (str * A)) k f q, names_ok m = true -> In (k, f) m -> ascii_alike q k -> mget km m q = Some f.
Proof. intros A m k f q Hn Hi Hq. apply In_nth_error in Hi. destruct Hi as [i Hi]. eapply mget_nth; eassumption. Qed.
End Build.
