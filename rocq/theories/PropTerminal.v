(** * What the REPL and the command line show (C70) *)
From Coq Require Import List NArith ZArith Bool Arith String Lia.
From Verif Require Import ModelBase ModelContext ModelText ModelDefault ModelSplit ModelTokenizer ModelNum ModelParse ModelStd ModelRepl SpecRepl ModelTerminal SpecTerminal ProofTerminal.
From Verif Require Import ProofRepl.
From Verif Require PropRepl ModelServer.
Import ListNotations.

(** ** The terminal shows the session *)

Definition first_rows (colors : bool) (pre : option str) : list (list cell) := match pre with Some t => [painted colors (Some Green) t] | None => [] end.
(** A row this long fits on the terminal, whose size is a [u16]. *)
Definition narrow (width : nat) (prompt : option str) (s : str) : Prop := (List.length (prompt_of prompt) + List.length s < width)%nat.

(** Any program run by the REPL that never answers [Continue] and writes at most one answer to a line; lines and answers of
    printable characters, that with the prompt are shorter than a row. After any keys the terminal shows: the text at the
    start, in green; each line entered, behind the prompt (in cyan); under it its answer, if any, also behind the prompt, in
    green or red; and in the current row the prompt and exactly the line being edited, the cursor behind it. At the end the
    line being edited is replaced by the exit text, in yellow. Without colours the text is the same, in no colour. *)
Theorem C70_screen : forall St (f : str -> St -> list written * res flow * St) colors width prompt pre exit size st keys r,
  (forall s st ws a st', f s st = (ws, a, st') -> a <> Ok FContinue) ->
  (N.of_nat width <= 65535)%N -> printable (prompt_of prompt) ->
  (forall t, pre = Some t \/ exit = Some t -> printable t /\ narrow width prompt t) ->
  Forall (fun k => match k with KChar c => is_control c = false | _ => True end) keys ->
  let run := term_run colors width prompt (recorded f) (term_start colors width prompt size pre (st, [])) in
  (forall k1 k2 r', keys = k1 ++ k2 -> run k1 = TRunning r' -> narrow width prompt (t_buf r')) ->
  (forall line answers, In (line, answers) (snd (t_state r)) -> (List.length answers <= 1)%nat /\
     Forall (fun x => printable (text_of x) /\ narrow width prompt (text_of x)) answers) ->
  let above := first_rows colors pre ++ flat_map (entry_rows colors (prompt_of prompt)) (snd (t_state r)) in
  let behind_prompt := fun color text => painted colors (Some Cyan) (prompt_of prompt) ++ painted colors color text in
  (run keys = TRunning r -> on_screen (c_screen (t_console r)) above (behind_prompt None (t_buf r))) /\
  (run keys = TStopped r -> forall bye, exit = Some bye -> on_screen (c_screen (term_exit colors width prompt exit (t_console r))) above (behind_prompt (Some Yellow) bye)).
Proof.
  intros St f colors width prompt pre exit size st keys r Hf Hw Hp Hpre Hk run Hfit Hlog above behind.
  set (p := prompt_of prompt) in *.
  assert (W0 : (List.length p < width)%nat).
  { specialize (Hfit [] keys _ eq_refl eq_refl). unfold narrow in Hfit. fold p in Hfit. lia. }
  assert (S0 : settled colors width prompt (first_rows colors pre) (term_start colors width prompt size pre (st, []))).
  { intros _. unfold term_start. cbn [t_console t_state t_buf t_history snd c_data c_new].
    split; [|split; [reflexivity|split; [constructor|split; [constructor|unfold fits; cbn; fold p; lia]]]]. apply rest_flush.
    unfold above_of, current_of. cbn [flat_map painted map]. rewrite !app_nil_r. set (con := Console _ _ _ _ _).
    assert (E0 : at_rest width colors con [] []) by (split; [split; [constructor|split; [exists 0%nat; reflexivity|reflexivity]]|split; reflexivity]).
    destruct pre as [t|]; cbn [first_rows].
    - destruct (Hpre t (or_introl eq_refl)) as [P1 P2]. unfold narrow in P2. fold p in P2. unfold rw_writeln, writeln_to. apply (prompt_first width colors prompt Hp); [|fold p; lia].
      change [painted colors (Some Green) t] with ([] ++ [painted colors (Some Green) t]). apply newline_written.
      change (painted colors (Some Green) t) with ([] ++ painted colors (Some Green) t). apply fg_written; [exact E0|exact P1|cbn; lia].
    - apply (prompt_first width colors prompt Hp); [exact E0|fold p; lia]. }
  assert (OK : Forall (entry_ok width prompt) (snd (t_state r))).
  { apply Forall_forall. intros [line answers] Hin. destruct (Hlog _ _ Hin) as [L F]. split; [exact L|]. cbn [snd]. rewrite Forall_forall in F |- *. intros x Hx. destruct (F x Hx) as [A B]. split; [exact A|]. unfold narrow in B. lia. }
  pose proof (run_settled f colors width prompt Hp Hw Hf (first_rows colors pre) keys _ S0 Hk Hfit) as X. unfold run. split; intros R; rewrite R in X.
  - destruct (X OK) as ([O _] & Q & _). unfold eff in O. rewrite Q in O. exact O.
  - intros bye ->. destruct (X OK) as (buf & Rst & F). unfold term_exit. rewrite screen_flush.
    destruct (Hpre bye (or_intror eq_refl)) as [P1 P2]. unfold narrow in P2. fold p in P2.
    refine (proj1 (rewritten width colors prompt Hp (Some Yellow) bye _ _ _ Rst _ P1 _)).
    + unfold fits in F. unfold current_of, painted. rewrite app_length, !map_length. lia.
    + fold p. lia.
Qed.
Print Assumptions C70_screen.

(** The writes change nothing of what the REPL does: without them it is the program of C34, C35 and C36. *)
Definition silent {St} (f : str -> St -> list written * res flow * St) (s : str) (st : St) : res flow * St := let '(_, a, st') := f s st in (a, st').
Definition same_repl {St} (r : trepl St) (r' : repl St) : Prop :=
  t_history r = r_history r' /\ t_cursor r = r_cursor r' /\ t_buf r = r_buf r' /\ t_state r = r_state r'.
Theorem C70_same_program : forall St (f : str -> St -> list written * res flow * St) colors width prompt pre size st keys,
  match term_run colors width prompt f (term_start colors width prompt size pre st) keys, repl_run (silent f) (repl_start size st) keys with
  | TRunning r, Running r' => same_repl r r'
  | TStopped r, Stopped r' => same_repl r r'
  | TCrashed, Crashed => True
  | _, _ => False
  end.
Proof.
  intros St f colors width prompt pre size st keys.
  assert (G : forall keys h c b st con o, match term_run colors width prompt f (TRepl h c b st con) keys, repl_run (silent f) (Repl h c b st o) keys with
    | TRunning r, Running r' => same_repl r r' | TStopped r, Stopped r' => same_repl r r' | TCrashed, Crashed => True | _, _ => False end).
  { clear. assert (REF : forall h c b st con o, @same_repl St (TRepl h c b st con) (Repl h c b st o)) by (intros; unfold same_repl; auto).
    induction keys as [|k keys IH]; intros h c b st con o; [apply REF|]. cbn [term_run repl_run]. destruct k; cbn [term_step repl_step]; try apply IH; try apply REF.
    - destruct b; apply IH.
    - assert (SI : silent f b st = let '(_, a, st') := f b st in (a, st')) by reflexivity. rewrite SI. clear SI. destruct (f b st) as [[ws a] st']. destruct a as [a|e|]; [|exact I|exact I]. destruct a; [|apply IH|apply REF].
      destruct (trim b); [apply IH|]. destruct (if match c_last h with Some l => str_eqb l b | None => false end then Ok h else c_push b h); [apply IH|exact I|exact I].
    - destruct c; [apply IH|]. destruct (c_index c h); [apply IH|exact I|exact I].
    - destruct (Nat.ltb c (c_len h)); [|apply IH]. destruct (Nat.eqb (S c) (c_len h)); [apply IH|]. destruct (c_index (S c) h); [apply IH|exact I|exact I]. }
  apply G.
Qed.
Print Assumptions C70_same_program.

(** ** The program: [eval repl] *)

(** What a line's replies are written as. *)
Definition as_written {V} (show : V -> str) (message : str -> str) (entry : str * list (reply (V := V))) : str * list written :=
  (fst entry, map (fun x => match x with Result v => Good (show v) | Message => Bad (message (fst entry)) end) (snd entry)).

Section Program.
Context {V W : Type}.
Variables (E : env) (dbg : bool) (parse : str -> option V) (show : V -> str) (message : str -> str) (b : bool) (d1 : dctx V W) (w0 : W).
Let f := term_line (V := V) (W := W) E dbg parse show message b.
Definition in_session_so_far (st : dctx V W * W * list (str * list written)) : Prop :=
  exists tr, session E dbg parse b d1 w0 tr (fst (fst st)) (snd (fst st)) /\ snd st = map (as_written show message) tr.
Definition in_session_exit (st : dctx V W * W * list (str * list written)) : Prop :=
  in_session_so_far st \/ exists tr s, trim s = lit "exit" /\ session E dbg parse b d1 w0 tr (fst (fst st)) (snd (fst st)) /\ snd st = map (as_written show message) tr ++ [(s, [])].

Lemma line_answers s st ws a st' : f s st = (ws, a, st') ->
  a <> Ok FContinue /\ (a = Ok FBreak -> trim s = lit "exit" /\ ws = [] /\ st' = st) /\
  (a = Ok FNone -> exists rs, loop_line E dbg parse b s (fst st, snd st, []) = (Ok FNone, (fst st', snd st', rs)) /\ (s, ws) = as_written show message (s, rs)).
Proof.
  unfold f, term_line. destruct st as [d w]. cbn [fst snd]. intros H. destruct (loop_line E dbg parse b s (d, w, [])) as [r [[d' w'] out]] eqn:El. injection H as <- <- <-.
  assert (X : r <> Ok FContinue /\ (r = Ok FBreak -> trim s = lit "exit" /\ out = [] /\ d' = d /\ w' = w)).
  { unfold loop_line in El. destruct (str_eqb (trim s) (lit "exit")) eqn:Ex.
    - injection El as <- <- <- <-. split; [discriminate|]. intros _. apply str_eqb_eq in Ex. auto.
    - destruct (existsb (char_eqb 61%N) (trim s)).
      + destruct (map trim (split_on 61%N (trim s))) as [|x [|y [|]]]; try (injection El as <- _ _ _; split; [discriminate|intros Q; discriminate Q]).
        destruct (parse y); [|injection El as <- _ _ _; split; [discriminate|intros Q; discriminate Q]].
        destruct (set_variable E dbg x v d) as [[|e|] d'']; injection El as <- _ _ _; split; try discriminate; intros Q; discriminate Q.
      + destruct (eval (to_ctx E d) parse (ModelSplit.split_into_tokens (repl_splitter b)) dbg (trim s) w) as [[v|e|] w''].
        * destruct (set_variable E dbg result_name v d) as [[|e|] d'']; injection El as <- _ _ _; split; try discriminate; intros Q; discriminate Q.
        * injection El as <- _ _ _; split; [discriminate|intros Q; discriminate Q].
        * injection El as <- _ _ _; split; [discriminate|intros Q; discriminate Q]. }
  destruct X as [X1 X2]. split; [exact X1|]. split.
  - intros ->. destruct (X2 eq_refl) as (A & -> & -> & ->). auto.
  - intros ->. exists out. split; [reflexivity|]. reflexivity.
Qed.

Lemma program_session colors width prompt keys : forall r, in_session_so_far (t_state r) ->
  match term_run colors width prompt (recorded f) r keys with
  | TRunning r' => in_session_so_far (t_state r')
  | TStopped r' => in_session_exit (t_state r')
  | TCrashed => True
  end.
Proof.
  induction keys as [|k keys IH]; intros r S; [exact S|]. cbn [term_run].
  assert (X : match term_step colors width prompt (recorded f) r k with TRunning r' => in_session_so_far (t_state r') | TStopped r' => in_session_exit (t_state r') | TCrashed => True end).
  { destruct r as [h c buf [st log] con]. cbn [t_state] in S. destruct k; cbn [term_step]; try exact S; try (left; exact S).
    - destruct buf; exact S.
    - unfold recorded. cbn [fst snd]. destruct (f buf st) as [[ws a] st'] eqn:Ef. destruct (line_answers _ _ _ _ _ Ef) as (A1 & A2 & A3).
      destruct a as [a|e|]; [|exact I|exact I]. destruct S as (tr & S1 & S2). cbn [fst snd] in S1, S2. destruct a; [|contradiction|].
      + destruct (A3 eq_refl) as (rs & L1 & L2). assert (N : in_session_so_far (st', log ++ [(buf, ws)])).
        { exists (tr ++ [(buf, rs)]). cbn [fst snd]. split; [eapply session_snoc; eassumption|]. rewrite map_app, S2, L2. reflexivity. }
        destruct (trim buf); [exact N|]. destruct (if match c_last h with Some l => str_eqb l buf | None => false end then Ok h else c_push buf h); [exact N|exact I|exact I].
      + destruct (A2 eq_refl) as (T & -> & ->). right. exists tr, buf. cbn [t_state fst snd]. split; [exact T|]. split; [exact S1|]. rewrite S2. reflexivity.
    - destruct c; [exact S|]. destruct (c_index c h); [exact S|exact I|exact I].
    - destruct (Nat.ltb c (c_len h)); [|exact S]. destruct (Nat.eqb (Datatypes.S c) (c_len h)); [exact S|]. destruct (c_index (Datatypes.S c) h); [exact S|exact I|exact I]. }
  destruct (term_step colors width prompt (recorded f) r k) as [r'|r'|]; [|exact X|exact I]. apply IH. exact X.
Qed.
End Program.

(** Over any number type: after any keys the terminal shows exactly a session (C36) of the lines entered: each line with the
    result or the message it gave, if any, under it, every row behind the prompt, and the line being edited; after Escape,
    Ctrl-C or a line [exit], "Bye bye!". *)
Theorem C70_program : forall V W E dbg (parse : str -> option V) show message b zero (d0 d1 : dctx V W) (w0 : W), loop_start E dbg zero d0 = Ok d1 ->
  forall colors width size keys r, (N.of_nat width <= 65535)%N -> narrow width (Some repl_prompt) repl_pre_text ->
  Forall (fun k => match k with KChar c => is_control c = false | _ => True end) keys ->
  let run := term_run colors width (Some repl_prompt) (recorded (term_line E dbg parse show message b)) (term_start colors width (Some repl_prompt) size (Some repl_pre_text) (d1, w0, [])) in
  (forall k1 k2 r', keys = k1 ++ k2 -> run k1 = TRunning r' -> narrow width (Some repl_prompt) (t_buf r')) ->
  (forall line answers x, In (line, answers) (snd (t_state r)) -> In x answers -> printable (text_of x) /\ narrow width (Some repl_prompt) (text_of x)) ->
  let shown := fun tr => painted colors (Some Green) (lit "Press CTRL+C or type 'exit' to Exit") :: flat_map (entry_rows colors (lit ">>> ")) (map (as_written show message) tr) in
  (run keys = TRunning r -> exists tr, session E dbg parse b d1 w0 tr (fst (fst (t_state r))) (snd (fst (t_state r))) /\
     on_screen (c_screen (t_console r)) (shown tr) (painted colors (Some Cyan) (lit ">>> ") ++ painted colors None (t_buf r))) /\
  (run keys = TStopped r -> exists tr last, session E dbg parse b d1 w0 tr (fst (fst (t_state r))) (snd (fst (t_state r))) /\
     (last = [] \/ exists s, trim s = lit "exit" /\ last = [painted colors (Some Cyan) (lit ">>> ") ++ painted colors None s]) /\
     on_screen (c_screen (term_exit colors width (Some repl_prompt) (Some repl_exit_text) (t_console r))) (shown tr ++ last)
       (painted colors (Some Cyan) (lit ">>> ") ++ painted colors (Some Yellow) (lit "Bye bye!"))).
Proof.
  intros V W E dbg parse show message b zero d0 d1 w0 Hs colors width size keys r Hw Hpre Hk run Hfit Hshow shown.
  assert (S0 : in_session_so_far E dbg parse show message b d1 w0 (d1, w0, [])) by (exists []; split; [constructor|reflexivity]).
  pose proof (program_session E dbg parse show message b d1 w0 colors width (Some repl_prompt) keys (term_start colors width (Some repl_prompt) size (Some repl_pre_text) (d1, w0, [])) S0) as P.
  pose proof (C70_screen (dctx V W * W) (term_line E dbg parse show message b) colors width (Some repl_prompt) (Some repl_pre_text) (Some repl_exit_text) size (d1, w0) keys r
    (fun s st ws a st' H => proj1 (line_answers E dbg parse show message b s st ws a st' H)) Hw ltac:(repeat constructor)) as Q.
  assert (HT : forall t, Some repl_pre_text = Some t \/ Some repl_exit_text = Some t -> printable t /\ narrow width (Some repl_prompt) t).
  { intros t [T|T]; injection T as <-; (split; [repeat constructor|]); [exact Hpre|]. unfold narrow in *. cbn in *. lia. }
  specialize (Q HT Hk Hfit). fold run in P, Q.
  assert (LOG : forall tr d w, session E dbg parse b d1 w0 tr d w -> forall line answers, In (line, answers) (map (as_written show message) tr) -> In (line, answers) (snd (t_state r)) ->
    (List.length answers <= 1)%nat /\ Forall (fun x => printable (text_of x) /\ narrow width (Some repl_prompt) (text_of x)) answers).
  { intros tr d w S line answers Hin Hlog. split; [|apply Forall_forall; intros x Hx; exact (Hshow _ _ _ Hlog Hx)]. apply in_map_iff in Hin. destruct Hin as ([s rs] & Ea & Hin). unfold as_written in Ea. cbn [fst snd] in Ea. injection Ea as <- <-.
    rewrite map_length. destruct (PropRepl.C36_session V W E dbg parse b zero d0 d1 Hs w0 tr d w S) as (_ & writes & F & _). clear -F Hin. revert Hin. induction F as [|e wr tr writes He F IH]; intros Hin; [destruct Hin|].
      destruct Hin as [->|Hin]; [|exact (IH Hin)]. inversion He; subst; cbn; lia. }
  split; intros R; rewrite R in P.
  - destruct P as (tr & S & L). exists tr. split; [exact S|]. assert (G := proj1 (Q (fun line answers Hin => LOG _ _ _ S line answers ltac:(rewrite <- L; exact Hin) Hin)) R). rewrite L in G. exact G.
  - destruct P as [(tr & S & L)|(tr & s & T & S & L)].
    + exists tr, []. split; [exact S|]. split; [left; reflexivity|]. assert (G := proj2 (Q (fun line answers Hin => LOG _ _ _ S line answers ltac:(rewrite <- L; exact Hin) Hin)) R _ eq_refl). rewrite L in G. rewrite app_nil_r. exact G.
    + exists tr, [painted colors (Some Cyan) (lit ">>> ") ++ painted colors None s]. split; [exact S|]. split; [right; exists s; auto|].
      assert (L2 : forall line answers, In (line, answers) (snd (t_state r)) -> (List.length answers <= 1)%nat /\ Forall (fun x => printable (text_of x) /\ narrow width (Some repl_prompt) (text_of x)) answers).
      { intros line answers Hin. pose proof Hin as Hin0. rewrite L in Hin. apply in_app_iff in Hin. destruct Hin as [Hin|[Hin|[]]]; [exact (LOG _ _ _ S _ _ Hin Hin0)|]. injection Hin as <- <-. split; [cbn; lia|constructor]. }
      assert (G := proj2 (Q L2) R _ eq_refl). rewrite L in G. rewrite flat_map_app in G. cbn [flat_map entry_rows fst snd map] in G. rewrite app_nil_r in G. exact G.
Qed.
Print Assumptions C70_program.

(** A session of the integer REPL, on a terminal of 80 columns: two lines, an error, a line fetched with Up and corrected with
    Backspace. The rows as text, trailing blanks removed. *)
Definition keys_of (s : string) : list key := map (fun c => if N.eqb c 10 then KEnter else KChar c) (lit s).
Definition trim_row (r : list cell) : str := trim (map fst r).
Definition int_term (colors : bool) (keys : list key) :=
  term_run colors 80 (Some repl_prompt) (term_line std_env true (parse_int i128) ModelServer.show_int (fun _ => lit "error") false)
    (term_start colors 80 (Some repl_prompt) None (Some repl_pre_text) (PropRepl.int_repl true, tt)) keys.
Definition typed_keys : list key := keys_of "1+2" ++ [KEnter] ++ keys_of "2*$result" ++ [KEnter] ++ keys_of "foo" ++ [KEnter; KUp; KUp; KBackspace].
Definition look (o : toutcome (dctx Z unit * unit)) : list str * str * nat :=
  match o with TRunning r => (map trim_row (rows (c_screen (t_console r))), trim_row (row (c_screen (t_console r))), col (c_screen (t_console r))) | _ => ([], [], 0%nat) end.
Example C70_case : look (int_term true typed_keys) =
  ([lit "Press CTRL+C or type 'exit' to Exit"; lit ">>> 1+2"; lit ">>> 3"; lit ">>> 2*$result"; lit ">>> 6"; lit ">>> foo"; lit ">>> error"], lit ">>> 2*$resul", 12%nat).
Proof. vm_compute. reflexivity. Qed.

(** Refuted without the condition on the length of a row: on a terminal of 10 columns, after typing 8 characters and erasing
    3, six of them are still shown. *)
Theorem C70_narrow_refuted : exists keys r,
  term_run false 10 (Some repl_prompt) (fun _ st => ([], Ok FNone, st)) (term_start false 10 (Some repl_prompt) None None tt) keys = TRunning r /\
  t_buf r = lit "12345" /\ map trim_row (rows (c_screen (t_console r))) = [lit ">>> 123456"] /\ trim_row (row (c_screen (t_console r))) = [].
Proof. eexists (keys_of "12345678" ++ [KBackspace; KBackspace; KBackspace]), _. split; [vm_compute; reflexivity|]. vm_compute. repeat split. Qed.
Print Assumptions C70_narrow_refuted.

(** Refuted without the condition that a line gets at most one answer: of a result and a message, the message comes before the
    prompt that should precede it. *)
Theorem C70_order_refuted : exists r,
  term_run false 80 (Some repl_prompt) (fun _ st => ([Good (lit "a"); Bad (lit "b")], Ok FNone, st)) (term_start false 80 (Some repl_prompt) None None tt) [KEnter] = TRunning r /\
  map trim_row (rows (c_screen (t_console r))) = [lit ">>>"; lit ">>> a"; lit "b"] /\ map fst (row (c_screen (t_console r))) = lit ">>> >>> ".
Proof. eexists. split; [vm_compute; reflexivity|]. vm_compute. repeat split. Qed.
Print Assumptions C70_order_refuted.

(** ** Without colours *)
Definition unstyled (p : stream * command) : Prop := match snd p with Print _ st => st = no_style | _ => True end.
Lemma unstyled_write width to data c : Forall unstyled (c_sent c) -> Forall unstyled (c_sent (write_to false width to data c)).
Proof.
  intros H. unfold write_to. cbn [negb]. assert (G : forall x, Forall unstyled (c_sent c ++ [(x, Print data no_style)])) by (intros x; apply Forall_app; split; [exact H|repeat constructor]).
  destruct to; cbn [send]; [|apply G]. destruct (existsb (N.eqb 10) data); apply G.
Qed.
Lemma unstyled_prompt width prompt c : Forall unstyled (c_sent c) -> Forall unstyled (c_sent (write_prompt_prefix false width prompt c)).
Proof. intros H. destruct prompt; [|exact H]. apply unstyled_write. exact H. Qed.
Lemma unstyled_one width prompt c x : Forall unstyled (c_sent c) -> Forall unstyled (c_sent (write_one false width prompt c x)).
Proof. intros H. destruct x; apply unstyled_prompt; do 2 apply unstyled_write; exact H. Qed.
Lemma unstyled_rewrite width prompt data c : Forall unstyled (c_sent c) -> Forall unstyled (c_sent (rewrite_line false width prompt data c)).
Proof.
  intros H. unfold rewrite_line. apply unstyled_write. cbn [set_bg set_fg c_sent]. apply unstyled_prompt. cbn [flush c_sent send]. repeat (apply Forall_app; split); try exact H; repeat constructor.
Qed.
(** With [--no-color] no text has a colour; *)
Theorem C70_no_color : forall St (f : str -> St -> list written * res flow * St) width prompt pre exit size st keys r,
  term_run false width prompt f (term_start false width prompt size pre st) keys = TRunning r \/ term_run false width prompt f (term_start false width prompt size pre st) keys = TStopped r ->
  forall to s style, In (to, Print s style) (c_sent (term_exit false width prompt exit (t_console r))) -> s_fg style = None /\ s_bg style = None.
Proof.
  intros St f width prompt pre exit size st keys r HR to s style Hin.
  assert (G : Forall unstyled (c_sent (t_console r))).
  { assert (G0 : Forall unstyled (c_sent (t_console (term_start false width prompt size pre st)))).
    { cbn [term_start t_console flush c_sent]. destruct pre as [t|]; [|apply unstyled_prompt; constructor]. apply unstyled_prompt. do 2 apply unstyled_write. constructor. }
    revert HR G0. generalize (term_start false width prompt size pre st). induction keys as [|k keys IH]; intros r0 HR G0; [destruct HR as [HR|HR]; [injection HR as <-; exact G0|discriminate]|].
    cbn [term_run] in HR.
    assert (X : match term_step false width prompt f r0 k with TRunning r' | TStopped r' => Forall unstyled (c_sent (t_console r')) | TCrashed => True end).
    { destruct r0 as [h c buf st0 con]. cbn [t_console] in G0. destruct k; cbn [term_step]; try exact G0.
      - destruct buf; [exact G0|]. apply unstyled_write. exact G0.
      - assert (G1 : forall ws, Forall unstyled (c_sent (fold_left (write_one false width prompt) ws (flush width (rw_writeln false width prompt Stdout [] con))))).
        { intros ws. set (c1 := flush width _). assert (G1 : Forall unstyled (c_sent c1)) by (apply unstyled_prompt; do 2 apply unstyled_write; exact G0). clearbody c1. revert c1 G1.
          induction ws as [|x ws IHw]; intros c1 G1; [exact G1|]. cbn [fold_left]. apply IHw. apply unstyled_one. exact G1. }
        destruct (f buf st0) as [[ws a] st']. destruct a as [a|e|]; [|exact I|exact I]. destruct a; try apply G1. destruct (trim buf); [apply G1|].
        destruct (if match c_last h with Some l => str_eqb l buf | None => false end then Ok h else c_push buf h); [apply G1|exact I|exact I].
      - destruct c; [exact G0|]. destruct (c_index c h); [apply unstyled_rewrite; exact G0|exact I|exact I].
      - destruct (Nat.ltb c (c_len h)); [|exact G0]. destruct (Nat.eqb (S c) (c_len h)); [apply unstyled_rewrite; exact G0|]. destruct (c_index (S c) h); [apply unstyled_rewrite; exact G0|exact I|exact I].
      - apply unstyled_write. exact G0. }
    destruct (term_step false width prompt f r0 k) as [r1|r1|]; [exact (IH r1 HR X)| |destruct HR; discriminate]. destruct HR as [HR|HR]; [discriminate|]. injection HR as <-. exact X. }
  assert (G2 : Forall unstyled (c_sent (term_exit false width prompt exit (t_console r)))).
  { unfold term_exit. destruct exit; [|exact G]. cbn [flush c_sent]. apply unstyled_rewrite. exact G. }
  rewrite Forall_forall in G2. specialize (G2 _ Hin). cbn in G2. subst style. split; reflexivity.
Qed.
Print Assumptions C70_no_color.
(** but (refuting: then only text is sent) a line fetched from the history, and the exit text, still clear the row and move the
    cursor. *)
Theorem C70_no_color_refuted :
  match term_run false 80 (Some repl_prompt) (fun _ st => ([], Ok FNone, st)) (term_start false 80 (Some repl_prompt) None None tt) (keys_of "1" ++ [KEnter; KUp]) with
  | TRunning r => exists before after, c_sent (t_console r) = before ++ (Stdout, ClearLine) :: after
  | _ => False
  end.
Proof.
  set (o := term_run _ _ _ _ _ _). assert (H : match o with TRunning r => existsb (fun p => match p with (Stdout, ClearLine) => true | _ => false end) (c_sent (t_console r)) | _ => false end = true) by (vm_compute; reflexivity).
  clearbody o. destruct o as [r|r|]; try discriminate. apply existsb_exists in H. destruct H as ([[|] [| |]] & H1 & H2); try discriminate. apply in_split. exact H1.
Qed.
Print Assumptions C70_no_color_refuted.

(** ** The command [eval] *)

(** A result, and a line feed, go to stdout and nothing to stderr; an error's text to stderr, in red, and nothing to stdout. *)
Theorem C70_streams : forall colors width result text screen, let c := Console None None screen [] [] in
  match result with
  | Ok s => exists c' n, main_eval colors width result text c = Ok (c', n) /\ sent_to Stdout c' = [Print s no_style; Print [10%N] no_style] /\ sent_to Stderr c' = []
  | Err _ => exists c' n, main_eval colors width result text c = Ok (c', n) /\ sent_to Stdout c' = [] /\
               sent_to Stderr c' = [Print text (if colors then Style (Some Red) None else no_style); Print [10%N] no_style]
  | Panic => main_eval colors width result text c = Panic
  end.
Proof.
  assert (SENT : forall width to k c, c_sent (send width to k c) = c_sent c ++ [(to, k)]).
  { intros width to k c. destruct to; [|reflexivity]. cbn [send]. destruct k; try reflexivity. destruct (existsb (N.eqb 10) s); reflexivity. }
  assert (WR : forall colors width to data c, c_sent (write_to colors width to data c) = c_sent c ++ [(to, Print data (if colors then Style (c_fg c) (c_bg c) else no_style))] /\
    (colors = true -> c_fg (write_to colors width to data c) = None /\ c_bg (write_to colors width to data c) = None)).
  { intros colors width to data c. unfold write_to. destruct colors; cbn [negb]; [|rewrite SENT; split; [reflexivity|discriminate]]. unfold reset, set_bg, set_fg. cbn [c_sent c_fg c_bg]. rewrite SENT. auto. }
  assert (LN : forall colors width to data c, c_sent (writeln_to colors width to data c) = c_sent c ++ [(to, Print data (if colors then Style (c_fg c) (c_bg c) else no_style)); (to, Print [10%N] no_style)]).
  { intros colors width to data c. unfold writeln_to. destruct (WR colors width to data c) as [A B]. set (c1 := write_to colors width to data c) in *. clearbody c1.
    rewrite (proj1 (WR colors width to [10%N] c1)), A, <- app_assoc. cbn [app]. do 4 f_equal. destruct colors; [|reflexivity]. destruct (B eq_refl) as [-> ->]. reflexivity. }
  intros colors width result text screen c. destruct result as [s|k|]; [| |reflexivity].
  - eexists _, _. split; [reflexivity|]. unfold sent_to. cbn [flush c_sent]. rewrite LN. cbn. destruct colors; split; reflexivity.
  - eexists _, _. split; [reflexivity|]. unfold sent_to. cbn [flush c_sent]. rewrite LN. cbn. destruct colors; split; reflexivity.
Qed.
Print Assumptions C70_streams.
(** Refuted: an error can be told from the exit status. *)
Theorem C70_status_refuted : forall colors width s k text c, exists c1 c2 status,
  main_eval colors width (Ok s) text c = Ok (c1, status) /\ main_eval colors width (Err k) text c = Ok (c2, status).
Proof. intros. do 3 eexists. split; reflexivity. Qed.
Print Assumptions C70_status_refuted.
