(** * Listing operators, functions and constants (C101)

    Vocabulary: SpecListing (what was added to a context, read off the log of calls; what a list tells), SpecText (calls and their histories). *)
From Coq Require Import List NArith Bool Permutation String.
From Verif Require Import ModelBase ModelContext ModelText ModelDefault ModelJson ModelListing ModelStd SpecText SpecListing ProofText ProofDefault ProofListing.
Import ListNotations.
Local Open Scope string_scope.
Local Open Scope list_scope.
Local Open Scope N_scope.

Lemma one_perm : forall {A} (P : A -> Prop) l l', Permutation l l' -> exactly_one P l' -> exactly_one P l.
Proof.
  intros A P l l' H (l1 & x & l2 & -> & X & F). assert (I : In x l) by (apply (Permutation_in x (Permutation_sym H)), in_elt). destruct (in_split _ _ I) as (m1 & m2 & ->).
  exists m1, x, m2. split; [reflexivity|]. split; [exact X|]. apply Permutation_app_inv in H. rewrite Forall_forall in *. intros y Y. apply F. exact (Permutation_in y H Y).
Qed.
Lemma one_map : forall {A B} (g : A -> B) (P : B -> Prop) l, exactly_one (fun x => P (g x)) l -> exactly_one P (map g l).
Proof.
  intros A B g P l (l1 & x & l2 & -> & X & F). exists (map g l1), (g x), (map g l2). split; [rewrite map_app; reflexivity|]. split; [exact X|]. rewrite <- map_app. apply Forall_map. exact F.
Qed.
Lemma table_tells : forall F (aliases : F -> list str) about E (m m' : list (str * F)) (entered : str -> F -> Prop) (whole : Prop), good m -> Permutation m' m -> (whole -> forall k g, In (k, g) m <-> entered k g) ->
  tells aliases about (mget (key_match E) m) entered whole (map (fun p => FnInfo (fst p) (aliases (snd p)) (about (snd p))) m').
Proof.
  intros F aliases about E m m' entered whole G P W. split; [|split].
  - intros i I. apply in_map_iff in I. destruct I as ([k f] & <- & I). cbn [fst snd i_name i_aliases i_description]. exists f. split; [|auto]. apply (good_get E m k f k G); [exact (Permutation_in _ P I)|apply alike_refl].
  - intros q f Q H. apply one_map. apply (one_perm _ _ _ P). destruct (good_one E m q f G Q H) as (m1 & k & m2 & -> & X & N). exists m1, (k, f), m2. auto.
  - intros Wh [k al ds]. cbn [i_name i_aliases i_description]. rewrite in_map_iff. split.
    + intros ([k' f] & X & I). injection X as -> <- <-. exists f. split; [|auto]. apply (W Wh). exact (Permutation_in _ P I).
    + intros (f & X & -> & ->). exists (k, f). split; [reflexivity|]. apply (Permutation_in _ (Permutation_sym P)). apply (W Wh). exact X.
Qed.

Theorem C101_functions : forall V W (E : env) dbg cf h (d : dctx V W) about table, history E dbg cf h d -> all_ascii_names h -> iterated table (d_funs d) ->
  tells fn_aliases about (get_function (to_ctx E d)) (function_entered h) (no_panic h) (get_functions about table).
Proof. intros V W E dbg cf h d about table H Q P. exact (table_tells _ _ _ E _ _ _ _ (good_funs E dbg cf h d H Q) P (fun NP => in_funs E dbg cf h d H Q NP)). Qed.
Print Assumptions C101_functions.

(** The operators: first the binary ones, then the unary ones; an operator that is both is there twice. *)
Theorem C101_operators : forall V W (E : env) dbg cf h (d : dctx V W) about_unary about_binary tb tu, history E dbg cf h d -> all_ascii_names h -> iterated tb (d_binary d) -> iterated tu (d_unary d) ->
  exists binary unary, get_operators about_unary about_binary tb tu = binary ++ unary /\
  tells bf_aliases about_binary (get_binary (to_ctx E d)) (binary_entered h) (no_panic h) binary /\ tells uf_aliases about_unary (get_unary (to_ctx E d)) (unary_entered h) (no_panic h) unary.
Proof.
  intros V W E dbg cf h d au ab tb tu H Q P P'. eexists _, _. split; [reflexivity|]. split.
  - exact (table_tells _ _ _ E _ _ _ _ (good_binary E dbg cf h d H Q) P (fun NP => in_binary E dbg cf h d H Q NP)).
  - exact (table_tells _ _ _ E _ _ _ _ (good_unary E dbg cf h d H Q) P' (fun NP => in_unary E dbg cf h d H Q NP)).
Qed.
Print Assumptions C101_operators.

(** The constants: one entry for each, in its first spelling and with its last value. *)
Theorem C101_constants : forall V W (E : env) dbg cf h (d : dctx V W) show table, history E dbg cf h d -> all_ascii_names h -> iterated table (d_consts d) ->
  (forall n s, In (n, s) (get_constants show table) <-> exists v, first_spelling n h /\ last_value n v h /\ s = show v) /\
  (forall n s, In (n, s) (get_constants show table) -> exists v, get_constant (to_ctx E d) n = Some v /\ s = show v) /\
  (forall q v, ascii_string q -> get_constant (to_ctx E d) q = Some v -> exactly_one (fun i => ascii_alike q (fst i)) (get_constants show table)).
Proof.
  intros V W E dbg cf h d show table H Q P. pose proof (good_consts E dbg cf h d H Q) as G. destruct (in_consts E dbg cf h d H Q) as [I1 _]. unfold get_constants. split; [|split].
  - intros n s. rewrite in_map_iff. split.
    + intros ([k v] & X & I). injection X as -> <-. exists v. pose proof (proj1 (I1 n v) (Permutation_in _ P I)) as [A B]. auto.
    + intros (v & A & B & ->). exists (n, v). split; [reflexivity|]. apply (Permutation_in _ (Permutation_sym P)). apply I1. auto.
  - intros n s I. apply in_map_iff in I. destruct I as ([k v] & X & I). injection X as -> <-. exists v. split; [|reflexivity]. apply (good_get E _ n v n G); [exact (Permutation_in _ P I)|apply alike_refl].
  - intros q v A X. apply one_map. apply (one_perm _ _ _ P). destruct (good_one E _ q v G A X) as (m1 & k & m2 & Y & Z & N). exists m1, (k, v), m2. auto.
Qed.
Print Assumptions C101_constants.

(** Non-vacuity: a log with aliases, a name that is an alias of itself, a constant given twice in two spellings, and a refused call. *)
Definition listing_log : list (call N unit) :=
  [AddFunction (Func (lit "max") [lit "m"; lit "MAX"] (fun _ => ret 0)) (lit "max"); AddFunction (Func (lit "min") [] (fun _ => ret 1)) (lit "min");
   AddConstant (lit "Pi") 3; AddUnary (UFunc (lit "-") [] Prefix (fun x => ret x)) (lit "-"); AddBinary (BFunc (lit "-") [lit "minus"] 1 LeftA (fun x y => ret x)) (lit "-");
   AddFunction (Func (lit "M") [] (fun _ => ret 2)) (lit "M"); AddConstant (lit "PI") 4].
Example C101_case : let (h, d) := replay std_env true listing_log [] (with_config config_new) in
  history std_env true config_new h d /\ map snd h = [Ok None; Ok None; Ok None; Ok None; Ok None; Err Unknown_; Ok None] /\
  get_functions (fun f => Some (fn_name f)) (d_funs d) = [FnInfo (lit "m") [lit "m"; lit "MAX"] (Some (lit "max")); FnInfo (lit "MAX") [lit "m"; lit "MAX"] (Some (lit "max")); FnInfo (lit "min") [] (Some (lit "min"))] /\
  get_operators (fun _ => None) (fun _ => None) (d_binary d) (d_unary d) = [FnInfo (lit "minus") [lit "minus"] None; FnInfo (lit "-") [lit "minus"] None; FnInfo (lit "-") [] None] /\
  get_constants (fun n => [48 + n]) (d_consts d) = [(lit "Pi", lit "4")] /\ Forall ascii_names listing_log.
Proof.
  pose proof (replay_history std_env true config_new listing_log [] (with_config config_new) (H_new _ _ _)) as H. destruct (replay std_env true listing_log [] (with_config config_new)) as [h d] eqn:R. cbn [fst snd] in H.
  split; [exact H|]. clear H. vm_compute in R. injection R as <- <-. repeat split; try reflexivity. repeat (constructor; [vm_compute; repeat split; repeat constructor|]). constructor.
Qed.
