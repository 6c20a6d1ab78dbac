(** * The properties of the REPL (C34, C35, C36)

    Vocabulary: SpecRepl. *)
From Coq Require Import List NArith ZArith Bool Arith Lia String.
From Verif Require Import ModelBase ModelContext ModelEvaluator ModelText ModelDefault ModelFloat ModelNum ModelOps ModelStd ModelSplit ModelTokenizer ModelParse ModelBinary ModelRepl
  SpecExpr SpecTokens SpecText SpecLex SpecLex2 SpecTokenizer SpecOps SpecRepl
  ProofText ProofDefault ProofBuild ProofCtx ProofOps ProofTokens2 ProofSplit ProofLex ProofLex3 ProofTok ProofTok2 PropLex PropOps ProofRepl.
From Verif Require Import ModelRepl.
Import ListNotations.

(** ** C34 *)

(** Whatever the calls: the array never holds more than its capacity, which does not change; *)
Theorem C34_bounded : forall A cap (a : carray A), reached cap a -> c_capacity a = cap /\ c_len a <= cap.
Proof. intros A cap a H. exact (reached_inv cap a H). Qed.
Print Assumptions C34_bounded.

(** ... a push makes room by dropping the oldest item if it is full, and never panics for a capacity above 0; *)
Theorem C34_push : forall A cap (a : carray A) x, reached cap a -> 0 < cap ->
  exists a', c_push x a = Ok a' /\ c_data a' = last_n cap (c_data a ++ [x]).
Proof. intros A cap a x H Hc. destruct (reached_inv cap a H) as [H1 H2]. rewrite push_spec by lia. eexists. split; [reflexivity|]. cbn. rewrite H1. reflexivity. Qed.
Print Assumptions C34_push.

(** ... so after any number of pushes it holds the last of them, in order. *)
Theorem C34_keeps_last : forall A cap (xs : list A), 0 < cap -> exists a, push_all xs (c_new cap) = Ok a /\ c_data a = last_n cap xs.
Proof. intros A cap xs H. rewrite push_all_spec by (cbn; lia). eexists. split; [reflexivity|]. reflexivity. Qed.
Print Assumptions C34_keeps_last.

(** The other calls: pop takes the newest item, remove takes the item at an index and closes the gap; both, and get, return
    nothing if there is no such item, indexing panics. *)
Theorem C34_calls : forall A (l : list A) cap i,
  (forall x, c_pop (CArray (l ++ [x]) cap) = (Some x, CArray l cap)) /\
  c_pop (CArray (@nil A) cap) = (None, CArray [] cap) /\
  (forall before x after, l = before ++ x :: after -> i = List.length before ->
     c_remove i (CArray l cap) = (Some x, CArray (before ++ after) cap) /\ c_get i (CArray l cap) = Some x /\ c_index i (CArray l cap) = Ok x) /\
  (List.length l <= i -> c_remove i (CArray l cap) = (None, CArray l cap) /\ c_get i (CArray l cap) = None /\ c_index i (CArray l cap) = Panic) /\
  c_last (CArray l cap) = last_of_list l.
Proof.
  intros A l cap i. split; [|split; [reflexivity|split; [|split]]].
  - intros x. unfold c_pop. cbn. rewrite rev_unit, rev_involutive. reflexivity.
  - intros b x a -> ->. unfold c_remove, c_get, c_index. cbn [c_data c_cap]. rewrite nth_error_app2 by lia. rewrite Nat.sub_diag. cbn [nth_error]. rewrite app_length. cbn [List.length].
    destruct (Nat.leb_spec (List.length b + S (List.length a)) (List.length b)); [lia|]. split; [|auto]. repeat f_equal.
    + rewrite firstn_app, Nat.sub_diag, firstn_all, app_nil_r. reflexivity.
    + replace (S (List.length b)) with (List.length (b ++ [x])) by (rewrite app_length; cbn; lia). replace (b ++ x :: a) with ((b ++ [x]) ++ a) by (rewrite <- app_assoc; reflexivity).
      rewrite skipn_app, skipn_all, Nat.sub_diag. reflexivity.
  - intros H. unfold c_remove, c_get, c_index. cbn [c_data c_cap]. destruct (Nat.leb_spec (List.length l) i); [|lia]. apply nth_error_None in H. rewrite H. auto.
  - apply c_last_spec.
Qed.
Print Assumptions C34_calls.

(** With capacity 0 the first push panics. *)
Theorem C34_zero_refuted : forall A (x : A), c_push x (c_new 0) = Panic.
Proof. reflexivity. Qed.
Print Assumptions C34_zero_refuted.

Example C34_case : push_all [1; 2; 3; 4; 5] (c_new 3) = Ok (CArray [3; 4; 5] 3) /\ last_n 3 [1; 2; 3; 4; 5] = [3; 4; 5].
Proof. split; reflexivity. Qed.
Example C34_reached_case : reached 3 (CArray [3; 5] 3).
Proof. apply (reached_remove 3 (CArray [3; 4; 5] 3) 1). apply (reached_push 3 (CArray [2; 3; 4] 3) 5); [|reflexivity]. apply (reached_push 3 (CArray [2; 3] 3) 4); [|reflexivity].
  apply (reached_push 3 (CArray [2] 3) 3); [|reflexivity]. apply (reached_push 3 (c_new 3) 2); [constructor|reflexivity]. Qed.

(** ** C35 *)

(** The size of the history: the one asked for, or 100. *)
Definition size_of (history_size : option nat) : nat := match history_size with Some n => n | None => 100 end.

(** Whatever keys are pressed, the prompt does not crash, if the callback does not and the history is not of size 0. *)
Theorem C35_never_crashes : forall St (f : str -> St -> res flow * St), (forall s st, exists a st', f s st = (Ok a, st')) ->
  forall size st keys, 0 < size_of size -> repl_run f (repl_start size st) keys <> Crashed.
Proof.
  intros St f Hf size st keys Hs H. assert (G : good (repl_start size st)) by (split; [exact Hs|split; cbn; lia]).
  pose proof (run_good f keys (repl_start size st) Hf G) as X. rewrite H in X. exact X.
Qed.
Print Assumptions C35_never_crashes.

(** At any time the history is the last of the lines to remember, of those entered so far: not blank, not the same twice in
    a row; the position in it is valid; and the terminal shows the line being edited. *)
Theorem C35_history : forall St (f : str -> St -> res flow * St) size st keys r, 0 < size_of size ->
  repl_run (logged f) (repl_start size (st, [])) keys = Running r \/ repl_run (logged f) (repl_start size (st, [])) keys = Stopped r ->
  c_data (r_history r) = last_n (size_of size) (remembered (snd (r_state r))) /\
  r_cursor r <= c_len (r_history r) /\
  displayed (r_out r) = r_buf r.
Proof.
  intros St f size st keys r Hs H. pose proof (run_fine f (size_of size) keys _ Hs (start_fine f size st (size_of size) eq_refl)) as X.
  destruct H as [H|H]; rewrite H in X; destruct X as (_ & X1 & X2 & X3); auto.
Qed.
Print Assumptions C35_history.

(** The log only records, it does not change what the prompt does. *)
Definition forget {St L} (o : outcome (St * L)) : outcome St :=
  let strip r := Repl (r_history r) (r_cursor r) (r_buf r) (fst (r_state r)) (r_out r) in
  match o with Running r => Running (strip r) | Stopped r => Stopped (strip r) | Crashed => Crashed end.
Theorem C35_log_faithful : forall St (f : str -> St -> res flow * St) size st keys,
  repl_run f (repl_start size st) keys = forget (repl_run (logged f) (repl_start size (st, [])) keys).
Proof.
  intros St f size st keys. assert (G : forall keys h c b st log o, repl_run f (Repl h c b st o) keys = forget (repl_run (logged f) (Repl h c b (st, log) o) keys)).
  { clear. induction keys as [|k keys IH]; intros h c b st log o; [reflexivity|]. cbn [repl_run]. destruct k; cbn [repl_step]; try apply IH; try reflexivity.
    - destruct b; apply IH.
    - unfold logged at 1. cbn [fst snd]. destruct (f b st) as [[a|e|] st']; [|reflexivity|reflexivity]. destruct a; [|apply IH|reflexivity]. destruct (trim b); [apply IH|].
      destruct (if match c_last h with Some l => str_eqb l b | None => false end then Ok h else c_push b h); [apply IH|reflexivity|reflexivity].
    - destruct c; [apply IH|]. destruct (c_index c h); [apply IH|reflexivity|reflexivity].
    - destruct (Nat.ltb c (c_len h)); [|apply IH]. destruct (Nat.eqb (S c) (c_len h)); [apply IH|]. destruct (c_index (S c) h); [apply IH|reflexivity|reflexivity]. }
  apply G.
Qed.
Print Assumptions C35_log_faithful.

(** The callback is called with the lines typed: the characters in order, each backspace erasing the one before it. *)
Theorem C35_lines : forall St (f : str -> St -> res flow * St), (forall s st, exists a st', f s st = (Ok a, st') /\ a <> FBreak) ->
  forall size st keys, 0 < size_of size -> Forall is_edit keys ->
  exists r, repl_run (logged f) (repl_start size (st, [])) keys = Running r /\ map fst (snd (r_state r)) = lines_typed [] keys.
Proof. intros St f Hf size st keys Hs Hk. apply (lines_logged f keys (repl_start size (st, []))); auto. cbn. lia. Qed.
Print Assumptions C35_lines.

(** Enter always passes on the line being edited, also one fetched from the history, and clears it. *)
Theorem C35_enter : forall St (f : str -> St -> res flow * St) h c b st o st' a, 0 < c_cap h -> c_len h <= c_cap h -> f b st = (Ok a, st') ->
  exists r, repl_step f (Repl h c b st o) KEnter = (match a with FBreak => Stopped r | _ => Running r end) /\ r_buf r = [] /\ r_state r = st' /\
  r_cursor r = (match a, trim b with FNone, _ :: _ => c_len (r_history r) | _, _ => c end).
Proof.
  intros St f h c b st o st' a Hc Hl H. cbn [repl_step]. rewrite H. destruct a; [|eauto 6..].
  destruct (trim b); [eauto 6|]. unfold c_len in Hl. rewrite push_spec by lia. destruct (match c_last h with Some l => str_eqb l b | None => false end); eauto 6.
Qed.
Print Assumptions C35_enter.

(** From any position (after Enter, past the newest line), pressing Up k times fetches the k-th older line, and at the oldest nothing happens; *)
Theorem C35_up : forall St (f : str -> St -> res flow * St) h c b st o k, c <= c_len h -> 0 < k ->
  exists s o', repl_run f (Repl h c b st o) (repeat KUp k) = Running (Repl h (c - k) s st o') /\
  s = (if Nat.eqb c 0 then b else nth (c - k) (c_data h) []).
Proof.
  intros St f h c b st o k Hc Hk. unfold c_len in Hc. destruct (Nat.eqb_spec c 0) as [->|Hz]; [exists b, o; split; [apply up_oldest|reflexivity]|].
  destruct (Nat.le_gt_cases k c) as [H|H].
  - destruct (up_many f k h c b st o Hc Hk H) as (s & o' & R & N). exists s, o'. split; [exact R|]. symmetry. apply nth_error_nth. exact N.
  - destruct (up_many f c h c b st o Hc ltac:(lia) (le_n c)) as (s & o' & R & N). exists s, o'. replace k with (c + (k - c)) by lia. rewrite repeat_app.
    assert (App : forall k1 k2 r, repl_run f r (k1 ++ k2) = match repl_run f r k1 with Running r' => repl_run f r' k2 | x => x end).
    { clear. induction k1 as [|k k1 IH]; intros; [reflexivity|]. cbn [app repl_run]. destruct (repl_step f r k); [apply IH|reflexivity|reflexivity]. }
    rewrite App, R, Nat.sub_diag. replace (c - (c + (k - c))) with 0 by lia. rewrite Nat.sub_diag in N. split; [apply up_oldest|symmetry; apply nth_error_nth; exact N].
Qed.
Print Assumptions C35_up.

(** ... Down k times the k-th newer one, past the newest the empty line, and there nothing happens. *)
Theorem C35_down : forall St (f : str -> St -> res flow * St) h c b st o k, c < c_len h -> 0 < k ->
  exists o', repl_run f (Repl h c b st o) (repeat KDown k) = Running (Repl h (Nat.min (c + k) (c_len h)) (nth (c + k) (c_data h) []) st o').
Proof.
  intros St f h c b st o k Hc Hk. unfold c_len in *. destruct (Nat.le_gt_cases (c + k) (List.length (c_data h))) as [H|H].
  - destruct (down_many f k h c b st o Hk H) as (o' & R). exists o'. rewrite R. rewrite Nat.min_l by exact H. repeat f_equal. destruct (nth_error (c_data h) (c + k)) eqn:N.
    + symmetry. apply nth_error_nth. exact N.
    + symmetry. apply nth_overflow. apply nth_error_None. exact N.
  - set (m := List.length (c_data h) - c). destruct (down_many f m h c b st o ltac:(lia) ltac:(lia)) as (o' & R). exists o'. replace k with (m + (k - m)) by lia. rewrite repeat_app.
    assert (App : forall k1 k2 r, repl_run f r (k1 ++ k2) = match repl_run f r k1 with Running r' => repl_run f r' k2 | x => x end).
    { clear. induction k1 as [|k k1 IH]; intros; [reflexivity|]. cbn [app repl_run]. destruct (repl_step f r k); [apply IH|reflexivity|reflexivity]. }
    rewrite App, R. replace (c + m) with (List.length (c_data h)) by lia. replace (c + (m + (k - m))) with (c + k) by lia. rewrite Nat.min_r by lia.
    rewrite (proj2 (nth_error_None (c_data h) (List.length (c_data h)))) by lia. rewrite nth_overflow by lia.
    clear. induction (k - m) as [|j IH]; [reflexivity|]. cbn [repeat repl_run repl_step]. unfold c_len. rewrite Nat.ltb_irrefl. exact IH.
Qed.
Print Assumptions C35_down.

(** With [--history 0] the first line that is not blank crashes the prompt, whatever the callback answers but Continue and Break. *)
Theorem C35_zero_history_refuted : forall St (f : str -> St -> res flow * St) st st' s, trim s <> [] -> f s st = (Ok FNone, st') ->
  repl_run f (repl_start (Some 0) st) (map KChar s ++ [KEnter]) = Crashed.
Proof.
  intros St f st st' s Hs Hf. assert (G : forall s' b o, exists o', repl_run f (Repl (c_new 0) 0 b st o) (map KChar s' ++ [KEnter]) = repl_run f (Repl (c_new 0) 0 (b ++ s') st o') [KEnter]).
  { induction s' as [|x s' IH]; intros b o; [exists o; cbn [map app]; rewrite app_nil_r; reflexivity|]. cbn [map app repl_run repl_step]. destruct (IH (b ++ [x]) (o ++ [Typed x])) as (o' & R). exists o'.
    cbn [repl_run] in R. rewrite R. rewrite <- app_assoc. reflexivity. }
  unfold repl_start. destruct (G s [] []) as (o' & ->). cbn [app repl_run repl_step]. rewrite Hf. destruct (trim s); [congruence|]. reflexivity.
Qed.
Print Assumptions C35_zero_history_refuted.

(** Typing "ab", Backspace, "c", Enter, "d", Enter, then Up Up Down: the line fetched is "d". *)
Example C35_case : exists r, repl_run (logged (fun _ (st : unit) => (Ok FNone, st))) (repl_start None (tt, []))
  [KChar 97%N; KChar 98%N; KBackspace; KChar 99%N; KEnter; KEnter; KChar 100%N; KEnter; KUp; KUp; KDown] = Running r /\
  r_buf r = lit "d" /\ c_data (r_history r) = [lit "ac"; lit "d"] /\ map fst (snd (r_state r)) = [lit "ac"; []; lit "d"] /\ displayed (r_out r) = lit "d".
Proof. eexists. split; [reflexivity|]. repeat split. Qed.

(** ** C36 *)


(** [exit] ends the loop. *)
Theorem C36_exit : forall V W E dbg (parse : str -> option V) b s (d : dctx V W) w out,
  fst (loop_line E dbg parse b s (d, w, out)) = Ok FBreak <-> trim s = lit "exit".
Proof.
  intros V W E dbg parse b s d w out. split.
  - intros H. destruct (line_kinds s) as [K|[(x & y & -> & Ha & Hb)|[(x & y & z & ->)|[K1 K2]]]]; [exact K|exfalso..].
    + rewrite line_assign in H by assumption. destruct (parse (trim y)) as [v|]; [destruct (set_variable E dbg (trim x) v d) as [[?|?|] ?]|]; discriminate.
    + rewrite line_many in H. discriminate.
    + rewrite line_eval in H by assumption. destruct (eval (to_ctx E d) parse (split_into_tokens (repl_splitter b)) dbg (trim s) w) as [[v|k|] ?]; [destruct (set_variable E dbg result_name v d) as [[?|?|] ?]| |]; discriminate.
  - intros H. rewrite (line_exit E dbg parse b s (d, w, out) H). reflexivity.
Qed.
Print Assumptions C36_exit.

(** A line [name = number] sets the variable, if the name can be assigned, and prints nothing; *)
Theorem C36_assignment : forall V W E dbg (parse : str -> option V) b left right (d : dctx V W) w out v, no_equals left -> no_equals right ->
  parse (trim right) = Some v -> assignable E dbg d (trim left) ->
  exists d', loop_line E dbg parse b (left ++ lit "=" ++ right) (d, w, out) = (Ok FNone, (d', w, out)) /\ same_but_variables d d' /\
  forall x, get_variable (to_ctx E d') x = if str_eqb (trim left) x then Some v else get_variable (to_ctx E d) x.
Proof.
  intros V W E dbg parse b left right d w out v Hl Hr Hp Ha. destruct (set_ok E dbg (trim left) v d Ha) as (d' & S & Sm & G). exists d'. split; [|auto].
  change (left ++ lit "=" ++ right) with (left ++ 61%N :: right). rewrite line_assign by assumption. rewrite Hp, S. reflexivity.
Qed.
Print Assumptions C36_assignment.

(** ... any other line with [=] prints an error and changes nothing. *)
Theorem C36_bad_assignment : forall V W E dbg (parse : str -> option V) b (d : dctx V W) w out left right,
  (~ no_equals left \/ ~ no_equals right \/ parse (trim right) = None \/ ~ assignable E dbg d (trim left)) ->
  loop_line E dbg parse b (left ++ lit "=" ++ right) (d, w, out) = (Ok FNone, (d, w, out ++ [Message])).
Proof.
  intros V W E dbg parse b d w out left right H. change (left ++ lit "=" ++ right) with (left ++ 61%N :: right).
  destruct (in_dec N.eq_dec 61%N left) as [Hl|Hl].
  { apply in_split in Hl. destruct Hl as (l1 & l2 & ->). rewrite <- app_assoc. cbn [app]. exact (line_many E dbg parse b l1 l2 right (d, w, out)). }
  destruct (in_dec N.eq_dec 61%N right) as [Hr|Hr].
  { apply in_split in Hr. destruct Hr as (r1 & r2 & ->). exact (line_many E dbg parse b left r1 r2 (d, w, out)). }
  rewrite line_assign by assumption. destruct H as [H|[H|[H|H]]]; try contradiction; [rewrite H; reflexivity|].
  destruct (parse (trim right)) as [v|]; [|reflexivity]. destruct (set_not_ok E dbg (trim left) v d H) as (k & S). rewrite S. reflexivity.
Qed.
Print Assumptions C36_bad_assignment.

(** The prompt starts with the variables of its context and [$result] at zero. *)
Theorem C36_start : forall V W E dbg (zero : V) (d0 d : dctx V W), loop_start E dbg zero d0 = Ok d ->
  same_but_variables d0 d /\ (forall x, get_variable (to_ctx E d) x = if str_eqb (lit "$result") x then Some zero else get_variable (to_ctx E d0) x).
Proof. intros V W E dbg zero d0 d H. destruct (start_assignable E dbg zero d0 d H) as (H1 & _ & H3). auto. Qed.
Print Assumptions C36_start.
Lemma Forall2_same_length : forall A B (R : A -> B -> Prop) l m, Forall2 R l m -> List.length l = List.length m.
Proof. intros A B R l m H. induction H; cbn; congruence. Qed.
(** For the checked and unchecked contexts of any number type it always starts. *)
Theorem C36_starts : forall V W (n : num V) L (rnd : W -> f64 * W) docs E dbg cf d zero,
  checked_context n L rnd docs E dbg cf = Ok d \/ unchecked_context n L rnd E dbg cf = Ok d -> exists d', loop_start E dbg zero d = Ok d'.
Proof.
  intros V W n L rnd docs E dbg cf d zero H. assert (C : d_consts d = [(lit "PI", match n_from_f64 n f_PI with Some p => p | None => zero end); (lit "E", match n_from_f64 n f_E with Some p => p | None => zero end)]
     \/ d_consts d = [(lit "E", match n_from_f64 n f_E with Some p => p | None => zero end); (lit "PI", match n_from_f64 n f_PI with Some p => p | None => zero end)]).
  { destruct H as [H|H]; [apply checked_inv in H|apply unchecked_inv in H]; destruct H as (p & e & -> & -> & ->); cbn; auto. }
  assert (A : assignable E dbg d result_name).
  { split; [intros _; reflexivity|]. intros k v Hin. assert (K : k = lit "PI" \/ k = lit "E") by (destruct C as [C|C]; rewrite C in Hin; cbn in Hin; destruct Hin as [X|[X|[]]]; injection X as <- _; auto).
    destruct (eq_ignore_case E k result_name) eqn:Q; [|reflexivity]. apply ascii_eq_ic in Q.
    - destruct K as [-> | ->]; apply Forall2_same_length in Q; discriminate.
    - destruct K as [-> | ->]; repeat constructor.
    - repeat constructor. }
  destruct (set_ok E dbg result_name zero d A) as (d' & S & _). exists d'. unfold loop_start. rewrite S. reflexivity.
Qed.
Print Assumptions C36_starts.

(** Any other line is evaluated; a result is printed and put in [$result], an error is printed and changes nothing. *)
Theorem C36_expression : forall V W E dbg (parse : str -> option V) b zero (d0 d1 : dctx V W), loop_start E dbg zero d0 = Ok d1 ->
  forall w0 log d w, session E dbg parse b d1 w0 log d w -> forall s, no_equals s -> trim s <> lit "exit" ->
  match eval (to_ctx E d) parse (split_into_tokens (repl_splitter b)) dbg s w with
  | (Ok v, w') => exists d', loop_line E dbg parse b s (d, w, []) = (Ok FNone, (d', w', [Result v])) /\ same_but_variables d d' /\
      forall x, get_variable (to_ctx E d') x = if str_eqb (lit "$result") x then Some v else get_variable (to_ctx E d) x
  | (Err _, w') => loop_line E dbg parse b s (d, w, []) = (Ok FNone, (d, w', [Message]))
  | (Panic, _) => fst (loop_line E dbg parse b s (d, w, [])) = Panic
  end.
Proof.
  intros V W E dbg parse b zero d0 d1 H w0 log d w S s Hs Hx. destruct (start_assignable E dbg zero d0 d1 H) as (_ & A & _).
  destruct (session_effect E dbg parse b _ _ _ _ _ S A) as [Sm _]. pose proof (same_assignable E dbg _ _ _ Sm A) as A'.
  destruct (trim_split s) as (p & q & Es & Bp & Bq). assert (Hb : In (repl_splitter b) splitters) by (destruct b; cbn; auto).
  pose proof (proj2 (C17_ends V W (to_ctx E d) parse (repl_splitter b) Hb (trim s) p q Bp Bq) dbg w) as Q. rewrite <- Es in Q. rewrite Q.
  rewrite (line_eval E dbg parse b s d w [] Hs Hx). destruct (eval (to_ctx E d) parse (split_into_tokens (repl_splitter b)) dbg (trim s) w) as [[v|k|] w']; [|reflexivity|reflexivity].
  destruct (set_ok E dbg result_name v d A') as (d' & S' & Sm' & G). exists d'. rewrite S'. auto.
Qed.
Print Assumptions C36_expression.

(** In every session of any length: only variables change; every line prints a result, or one message, or nothing if it is an
    assignment; and every variable has the last value written to it, or else its value at the start. *)
Theorem C36_session : forall V W E dbg (parse : str -> option V) b zero (d0 d1 : dctx V W), loop_start E dbg zero d0 = Ok d1 ->
  forall w0 log d w, session E dbg parse b d1 w0 log d w ->
  same_but_variables d0 d /\ exists writes, Forall2 (wrote parse) log writes /\
  forall x, get_variable (to_ctx E d) x = last_written x (Some (lit "$result", zero) :: writes) (get_variable (to_ctx E d0) x).
Proof.
  intros V W E dbg parse b zero d0 d1 H w0 log d w S. destruct (start_assignable E dbg zero d0 d1 H) as (Sm & A & G). destruct (session_effect E dbg parse b _ _ _ _ _ S A) as (Sm2 & writes & F & G2).
  split; [eapply same_trans; eassumption|]. exists writes. split; [exact F|]. intros x. rewrite G2, G. reflexivity.
Qed.
Print Assumptions C36_session.

(** What a line wrote is determined by the line and its replies. *)
Theorem C36_wrote_unique : forall V (parse : str -> option V) e w1 w2, wrote parse e w1 -> wrote parse e w2 -> w1 = w2.
Proof.
  assert (U : forall a a' b b' : str, no_equals a -> no_equals a' -> a ++ 61%N :: b = a' ++ 61%N :: b' -> a = a' /\ b = b').
  { induction a as [|x a IH]; intros [|y a'] b b' Ha Ha' Q; cbn in Q.
    - injection Q as ->. auto.
    - injection Q as <- _. exfalso. apply Ha'. left. reflexivity.
    - injection Q as -> _. exfalso. apply Ha. left. reflexivity.
    - injection Q as -> Q. destruct (IH a' b b') as [-> ->]; auto; intros X; [apply Ha|apply Ha']; right; exact X. }
  intros V parse e w1 w2 H1 H2. destruct H1 as [a b v Ha Hb Hp|s v|s]; inversion H2 as [a' b' v' Ha' Hb' Hp' Q|s' v' Q|s' Q]; subst; try reflexivity.
  match goal with H : _ ++ _ = _ ++ _ |- _ => destruct (U _ _ _ _ Ha' Ha H) as [-> ->] end. congruence.
Qed.
Print Assumptions C36_wrote_unique.

(** So [$result] holds the last result printed (or assigned to it, or zero). *)
Theorem C36_result : forall V W E dbg (parse : str -> option V) b zero (d0 d1 : dctx V W), loop_start E dbg zero d0 = Ok d1 ->
  forall w0 log d w s v later, session E dbg parse b d1 w0 (log ++ (s, [Result v]) :: later) d w ->
  Forall (fun e => snd e = [Message]) later -> get_variable (to_ctx E d) (lit "$result") = Some v.
Proof.
  intros V W E dbg parse b zero d0 d1 H w0 log d w s v later S F. destruct (C36_session V W E dbg parse b zero d0 d1 H w0 _ d w S) as (_ & writes & F2 & G). rewrite G.
  apply Forall2_app_inv_l in F2. destruct F2 as (wr1 & wr2 & F3 & F4 & ->). inversion F4 as [|? y ? wr3 Hw F5]; subst.
  assert (Y : y = Some (lit "$result", v)) by (eapply C36_wrote_unique; [exact Hw|constructor]). subst y.
  assert (L : forall x wr a c, last_written x (wr ++ a) c = last_written x a (@last_written V x wr c)).
  { clear. induction wr as [|[[n v]|] wr IH]; intros a c; cbn; [reflexivity|apply IH..]. }
  cbn [last_written]. rewrite L. cbn [last_written]. rewrite str_eqb_refl.
  clear - F F5. revert wr3 F5. induction F as [|[s' rs] later Hm _ IH]; intros wr3 F5; inversion F5 as [|? y ? wr4 Hw F6]; subst; [reflexivity|].
  cbn in Hm. subst rs. assert (y = None) by (eapply C36_wrote_unique; [exact Hw|constructor]). subst y. cbn [last_written]. apply IH. exact F6.
Qed.
Print Assumptions C36_result.

(** The whole program: whatever keys are pressed, its context is that of a session of exactly the lines entered, and what
    was printed is what their lines printed; the loop ends by Escape, Ctrl-C or a line [exit]. *)
Theorem C36_program : forall V W E dbg (parse : str -> option V) b zero (d0 d1 : dctx V W), loop_start E dbg zero d0 = Ok d1 ->
  forall size w0 keys r d w out log, r_state r = (d, w, out, log) ->
  let run := repl_run (logged (loop_line E dbg parse b)) (repl_start size (d1, w0, [], [])) keys in
  (run = Running r -> exists tr, session E dbg parse b d1 w0 tr d w /\ log = map (fun p => (fst p, FNone)) tr /\ out = flat_map snd tr) /\
  (run = Stopped r -> exists tr last, session E dbg parse b d1 w0 tr d w /\ log = map (fun p => (fst p, FNone)) tr ++ last /\ out = flat_map snd tr /\
     (last = [] \/ exists s, trim s = lit "exit" /\ last = [(s, FBreak)])).
Proof.
  intros V W E dbg parse b zero d0 d1 H size w0 keys r d w out log Er run.
  assert (S0 : in_session E dbg parse b d1 w0 (repl_start size (d1, w0, [], [])) []).
  { exists [], []. cbn. split; [reflexivity|]. split; [reflexivity|]. split; [constructor|reflexivity]. }
  pose proof (run_whole E dbg parse b d1 w0 keys _ S0) as X. fold run in X. split; intros R; rewrite R in X; cbn [whole] in X.
  - destruct X as (lg & tr & X1 & X2 & X3 & X4). rewrite Er in X1, X3, X4. cbn [fst snd] in X1, X3, X4. rewrite app_nil_r in X1. exists tr.
    split; [exact X3|]. split; [congruence|exact X4].
  - destruct X as [(lg & tr & X1 & X2 & X3 & X4)|(s & Hs & lg & tr & X1 & X2 & X3 & X4)]; rewrite Er in X1, X3, X4; cbn [fst snd] in X1, X3, X4.
    + exists tr, []. split; [exact X3|]. split; [congruence|]. auto.
    + exists tr, [(s, FBreak)]. split; [exact X3|]. split; [congruence|]. split; [exact X4|]. right. eauto.
Qed.
Print Assumptions C36_program.

(** A line that is the text of an expression prints its value, computed with the variables of the session. *)
Theorem C36_expression_text : forall V W E dbg (parse : str -> option V) b zero (d0 d1 : dctx V W), loop_start E dbg zero d0 = Ok d1 ->
  forall w0 log d w, session E dbg parse b d1 w0 log d w -> forall e s v w', wf (to_ctx E d) e -> ~ blank s ->
  Forall2 (spells (to_ctx E d) parse) (print e) (split_into_tokens (repl_splitter b) s) -> readable (to_ctx E d) e ->
  (complex_number (d_config d) = true -> ~ In (lit "i") (split_into_tokens (repl_splitter b) s)) ->
  no_equals s -> trim s <> lit "exit" -> denote (to_ctx E d) e w = (Ok v, w') ->
  exists d', loop_line E dbg parse b s (d, w, []) = (Ok FNone, (d', w', [Result v])) /\
  forall x, get_variable (to_ctx E d') x = if str_eqb (lit "$result") x then Some v else get_variable (to_ctx E d) x.
Proof.
  intros V W E dbg parse b zero d0 d1 H w0 log d w S e s v w' Hw Hb Hs Hd Hi He Hx Hv.
  pose proof (C36_expression V W E dbg parse b zero d0 d1 H w0 log d w S s He Hx) as X.
  rewrite (C16_any_splitter V W (to_ctx E d) parse (split_into_tokens (repl_splitter b)) dbg e s w Hw Hb Hs Hd Hi), Hv in X. destruct X as (d' & X1 & _ & X2). eauto.
Qed.
Print Assumptions C36_expression_text.

(** In a session over the checked context of any number type, no ASCII line that mentions neither [!] nor [avg] panics. *)
Theorem C36_never_panics : forall V W (n : num V) L (rnd : W -> f64 * W) docs E dbg cf d0 d1 zero parse b,
  checked_context n L rnd docs E dbg cf = Ok d0 -> loop_start E dbg zero d0 = Ok d1 ->
  forall w0 log d w, session E dbg parse b d1 w0 log d w -> forall s, ascii s ->
  (forall x, In x (split_into_tokens (repl_splitter b) s) -> eq_ignore_case E x (lit "!") = false /\ eq_ignore_case E x (lit "avg") = false) ->
  fst (loop_line E dbg parse b s (d, w, [])) <> Panic.
Proof.
  intros V W n L rnd docs E dbg cf d0 d1 zero parse b Hc H w0 log d w S s Ha Hx.
  destruct (C36_session V W E dbg parse b zero d0 d1 H w0 log d w S) as (Sm & _). destruct Sm as (_ & Sf & Su & Sb & _).
  assert (Hs : In (repl_splitter b) splitters) by (destruct b; cbn; auto).
  assert (NP : fst (eval (to_ctx E d) parse (split_into_tokens (repl_splitter b)) dbg s w) <> Panic).
  { unfold eval, bind, lift. assert (Sh : Forall shipped (repl_splitter b)) by (apply splitters_shipped; exact Hs).
    pose proof (C12_ascii_no_panic V W (to_ctx E d) parse (repl_splitter b) Sh s Ha) as NP.
    destruct (tokenize (to_ctx E d) parse (split_into_tokens (repl_splitter b)) s) as [ts|k|] eqn:Et; [|discriminate|congruence]. apply C13_words_to_tokens in Et. destruct Et as [_ Et].
    assert (G : forall prev l ts, stand_for (to_ctx E d) parse prev l ts -> forall x, In (TUnary x) ts \/ In (TFunction x) ts -> In x l).
    { clear. intros prev l ts S. induction S as [prev|prev ws ts Hn _ IH|prev s ws t ts Ht Hk Hi _ IH|prev s ws v ts Hx _ _ _ IH]; intros x Hx'.
      - destruct Hx' as [[]|[]].
      - right. apply IH. exact Hx'.
      - destruct Hx' as [[X|X]|[X|X]]; try (right; apply IH; auto; fail); subst t; inversion Ht; subst; left; reflexivity.
      - right. right. apply IH. destruct Hx' as [[X|X]|[X|X]]; try discriminate; auto. }
    pose proof (fun name w => C28_builtins_never_panic V W n L rnd docs E dbg cf d0 Hc name w) as C.
    assert (B : forall o, calls_safely (to_ctx E d) (TBinary o)).
    { intros o g x y w' Hg. destruct (C o w') as [C1 _]. specialize (C1 x y). unfold apply_binary in C1. unfold to_ctx in Hg, C1. cbn [get_binary] in Hg, C1. rewrite Sb in Hg. rewrite Hg in C1. exact C1. }
    apply eval_no_panic; [|intros _; apply B]. apply Forall_forall. intros t Ht. destruct t; try exact I; [|apply B|].
    - intros g args w' Hg. destruct (C f w') as (_ & _ & C3). unfold apply_function in C3. unfold to_ctx in Hg, C3. cbn [get_function] in Hg, C3. rewrite Sf in Hg. rewrite Hg in C3.
      apply C3. apply (Hx f). apply (G None _ ts Et f). auto.
    - intros g x w' Hg. destruct (C u w') as (_ & C2 & _). unfold apply_unary in C2. unfold to_ctx in Hg, C2. cbn [get_unary] in Hg, C2. rewrite Su in Hg. rewrite Hg in C2.
      apply C2. apply (Hx u). apply (G None _ ts Et u). auto. }
  destruct (line_kinds s) as [K|[(p & q & -> & Hp & Hq)|[(p & q & r & ->)|[K1 K2]]]].
  - rewrite (line_exit E dbg parse b s (d, w, []) K). discriminate.
  - rewrite line_assign by assumption. destruct (parse (trim q)) as [v|]; [|discriminate]. destruct (assignable_dec E dbg d (trim p)) as [B|B].
    + destruct (set_ok E dbg (trim p) v d B) as (d' & Q & _). rewrite Q. discriminate.
    + destruct (set_not_ok E dbg (trim p) v d B) as (k & Q). rewrite Q. discriminate.
  - rewrite line_many. discriminate.
  - pose proof (C36_expression V W E dbg parse b zero d0 d1 H w0 log d w S s K1 K2) as X.
    destruct (eval (to_ctx E d) parse (split_into_tokens (repl_splitter b)) dbg s w) as [[v|k|] w']; [|rewrite X; discriminate|exfalso; apply NP; reflexivity].
    destruct X as (d' & -> & _). discriminate.
Qed.
Print Assumptions C36_never_panics.

(** The integer REPL: [i128] with implicit multiplication (run_repl), in a debug or release build. *)
Definition int_repl (dbg : bool) : dctx Z unit :=
  unres (loop_start std_env dbg 0%Z (unres (checked_context (int_num i128 dbg) no_libm no_random true std_env dbg implicit_config) implicit_config)) implicit_config.
Definition int_line (dbg : bool) (s : string) (d : dctx Z unit) := loop_line std_env dbg (parse_int i128) false (lit s) (d, tt, []).
(** What a list of lines prints. *)
Fixpoint int_lines (dbg : bool) (ls : list string) (d : dctx Z unit) : list (list (reply (V := Z))) :=
  match ls with [] => [] | s :: ls' => let '(_, (d', _, out)) := int_line dbg s d in out :: int_lines dbg ls' d' end.

(** The comparison operators (of the binary context) cannot be used, their lines are taken for assignments: [5 == 5] is one
    [=] too many, [b1 >= b0] is rejected in debug builds, as [b1 >] is no valid name, and sets the variable [b1 >] in release
    builds. And the right side of an assignment cannot be an expression. *)
Definition bin_repl (dbg : bool) : dctx Z unit :=
  unres (loop_start std_env dbg 0%Z (unres (binary_context dbg std_env implicit_config) implicit_config)) implicit_config.
Definition bin_line (dbg : bool) (s : string) (d : dctx Z unit) := loop_line std_env dbg parse_binary true (lit s) (d, tt, []).
Theorem C36_comparisons_refuted :
  (forall dbg, snd (snd (bin_line dbg "b1 == b1" (bin_repl dbg))) = [Message]) /\
  snd (snd (bin_line true "b1 >= b0" (bin_repl true))) = [Message] /\
  snd (snd (bin_line false "b1 >= b0" (bin_repl false))) = [] /\
  get_variable (to_ctx std_env (fst (fst (snd (bin_line false "b1 >= b0" (bin_repl false)))))) (lit "b1 >") = Some 0%Z /\
  (forall dbg, snd (snd (bin_line dbg "b1 > b0" (bin_repl dbg))) = [Result 1%Z]) /\
  (forall dbg, snd (snd (int_line dbg "x = 1+1" (int_repl dbg))) = [Message]).
Proof. repeat apply conj; try (intros [|]); vm_compute; reflexivity. Qed.
Print Assumptions C36_comparisons_refuted.

Example C36_case : forall dbg, int_lines dbg ["x = 12"; "2x + 1"; "$result * 2"; "y"; " pi = 3"; "$result"; "x"]%string (int_repl dbg) =
  [[]; [Result 25%Z]; [Result 50%Z]; [Message]; [Message]; [Result 50%Z]; [Result 12%Z]].
Proof. intros [|]; vm_compute; reflexivity. Qed.
