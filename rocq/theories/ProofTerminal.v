(** * Proofs: the terminal *)
From Coq Require Import List NArith Bool Arith String Lia.
From Verif Require Import ModelBase ModelContext ModelText ModelDefault ModelTokenizer ModelRepl ModelTerminal SpecTerminal.
Import ListNotations.

Lemma firstn_exact {A} (a b : list A) : firstn (List.length a) (a ++ b) = a.
Proof. rewrite firstn_app, firstn_all, Nat.sub_diag. cbn. apply app_nil_r. Qed.
Lemma skipn_exact {A} (a b : list A) : skipn (List.length a) (a ++ b) = b.
Proof. rewrite skipn_app, skipn_all, Nat.sub_diag. reflexivity. Qed.
Lemma put_cell_end cur n x : exists m, put_cell (List.length cur) x (cur ++ repeat blank_cell n) = (cur ++ [x]) ++ repeat blank_cell m.
Proof.
  unfold put_cell. rewrite firstn_exact. rewrite app_length, repeat_length. replace (List.length cur - (List.length cur + n)) with 0 by lia. cbn [repeat app].
  exists (pred n). rewrite <- app_assoc. cbn [app]. do 2 f_equal. replace (S (List.length cur)) with (List.length cur + 1) by lia.
  rewrite skipn_app. rewrite skipn_all2 by lia. replace (List.length cur + 1 - List.length cur) with 1 by lia. destruct n; reflexivity.
Qed.

Section W.
Variable width : nat.
Lemma put_char st s c above cur : on_screen s above cur -> is_control c = false -> List.length cur < width ->
  on_screen (put width st s c) above (cur ++ [(c, st)]).
Proof.
  intros (R & (n & E) & C) Hc Hl. unfold put.
  assert (N.eqb c 10 = false) as -> by (apply N.eqb_neq; intros ->; discriminate).
  assert (N.eqb c 8 = false) as -> by (apply N.eqb_neq; intros ->; discriminate).
  rewrite Hc. assert (Nat.eqb (col s) width = false) as -> by (apply Nat.eqb_neq; lia).
  split; [exact R|]. split; cbn [row col].
  - rewrite E, C. exact (put_cell_end cur n (c, st)).
  - rewrite app_length. cbn. lia.
Qed.
Lemma put_text st text : forall s above cur, on_screen s above cur -> printable text -> List.length cur + List.length text <= width ->
  on_screen (perform width s (Print text st)) above (cur ++ map (fun x => (x, st)) text).
Proof.
  cbn [perform]. induction text as [|c text IH]; intros s above cur H P L; cbn [fold_left map].
  - rewrite app_nil_r. exact H.
  - inversion P; subst. cbn in L. replace (cur ++ (c, st) :: map (fun x => (x, st)) text) with ((cur ++ [(c, st)]) ++ map (fun x => (x, st)) text) by (rewrite <- app_assoc; reflexivity).
    apply IH; [apply put_char; [assumption..|lia]|assumption|rewrite app_length; cbn; lia].
Qed.
Lemma put_newline st s above cur : on_screen s above cur -> on_screen (perform width s (Print [10%N] st)) (above ++ [cur]) [].
Proof.
  intros (R & S & C). cbn [perform fold_left]. unfold put. cbn [N.eqb]. split; [|split]; cbn [rows row col].
  - apply Forall2_app; [exact R|constructor; [exact S|constructor]].
  - exists 0. reflexivity.
  - reflexivity.
Qed.
Lemma put_erase s above cur x : on_screen s above (cur ++ [x]) -> List.length cur < width ->
  on_screen (perform width s (Print [8; 32; 8]%N no_style)) above cur.
Proof.
  intros (R & (n & E) & C) L. cbn [perform fold_left]. rewrite app_length in C. cbn in C.
  unfold put. cbn [N.eqb Pos.eqb is_control between rows row col]. change (is_control 32%N) with false. cbv iota.
  assert (Nat.eqb (pred (col s)) width = false) as -> by (apply Nat.eqb_neq; lia). cbn [rows row col pred].
  split; [exact R|]. cbn [row col]. replace (pred (col s)) with (List.length cur) by lia. split; [|reflexivity].
  rewrite E. unfold put_cell. rewrite <- app_assoc, firstn_exact. rewrite !app_length, repeat_length. cbn [List.length].
  replace (List.length cur - (List.length cur + (1 + n))) with 0 by lia. cbn [repeat app].
  replace (S (List.length cur)) with (List.length (cur ++ [x])) by (rewrite app_length; cbn; lia).
  replace (cur ++ x :: repeat blank_cell n) with ((cur ++ [x]) ++ repeat blank_cell n) by (rewrite <- app_assoc; reflexivity).
  rewrite skipn_exact. exists (S n). reflexivity.
Qed.
Lemma clear_move s above cur k : on_screen s above cur -> List.length cur <= k -> on_screen (perform width (perform width s ClearLine) (MoveLeft k)) above [].
Proof. intros (R & S & C) L. cbn [perform]. split; [exact R|]. split; cbn [rows row col]; [exists 0; reflexivity|]. cbn. lia. Qed.

(** The screen once everything pending is delivered. *)
Definition eff (c : console) : screen := fold_left (perform width) (c_pending c) (c_screen c).
Lemma eff_flush c : eff (flush width c) = eff c. Proof. reflexivity. Qed.
Lemma screen_flush c : c_screen (flush width c) = eff c. Proof. reflexivity. Qed.
Lemma eff_fg f c : eff (set_fg f c) = eff c. Proof. reflexivity. Qed.
Lemma eff_bg f c : eff (set_bg f c) = eff c. Proof. reflexivity. Qed.
Lemma eff_send k c : eff (send width Stdout k c) = perform width (eff c) k.
Proof.
  unfold send. assert (G : eff {| c_fg := c_fg c; c_bg := c_bg c; c_screen := c_screen c; c_pending := c_pending c ++ [k]; c_sent := c_sent c ++ [(Stdout, k)] |} = perform width (eff c) k).
  { unfold eff. cbn [c_pending c_screen]. rewrite fold_left_app. reflexivity. }
  destruct k; try exact G. destruct (existsb (N.eqb 10) s); [rewrite eff_flush|]; exact G.
Qed.
Lemma eff_send_err k c : c_pending c = [] -> eff (send width Stderr k c) = perform width (eff c) k /\ c_pending (send width Stderr k c) = [].
Proof. intros H. unfold send, eff. cbn [c_pending c_screen]. rewrite H. split; reflexivity. Qed.
Lemma send_fg to k c : c_fg (send width to k c) = c_fg c /\ c_bg (send width to k c) = c_bg c.
Proof. destruct to; [|auto]. unfold send. destruct k; auto. destruct (existsb (N.eqb 10) s); auto. Qed.

Variable colors : bool.
Definition pen (c : console) : style := if colors then Style (c_fg c) (c_bg c) else no_style.
(** The writer's colours are not set. *)
Definition plain (c : console) : Prop := colors = true -> c_fg c = None /\ c_bg c = None.

Lemma write_out data c : eff (write_to colors width Stdout data c) = perform width (eff c) (Print data (pen c)) /\ plain (write_to colors width Stdout data c).
Proof.
  unfold write_to, pen, plain. destruct colors; cbn [negb]; [|split; [apply eff_send|discriminate]].
  unfold reset. rewrite eff_bg, eff_fg, eff_send. split; [reflexivity|split; reflexivity].
Qed.
Lemma write_err data c : c_pending c = [] -> eff (write_to colors width Stderr data c) = perform width (eff c) (Print data (pen c)) /\ plain (write_to colors width Stderr data c) /\
  c_pending (write_to colors width Stderr data c) = [].
Proof.
  intros H. unfold write_to, pen, plain. destruct colors; cbn [negb].
  - destruct (eff_send_err (Print data {| s_fg := c_fg c; s_bg := c_bg c |}) c H) as [A B]. unfold reset. rewrite eff_bg, eff_fg. split; [exact A|]. split; [auto|exact B].
  - destruct (eff_send_err (Print data no_style) c H) as [A B]. split; [exact A|]. split; [discriminate|exact B].
Qed.
Lemma pen_plain c : plain c -> pen c = no_style.
Proof. unfold pen, plain. destruct colors; [|reflexivity]. intros H. destruct (H eq_refl) as [-> ->]. reflexivity. Qed.
Lemma pen_fg f c : plain c -> pen (set_fg f c) = if colors then Style f None else no_style.
Proof. unfold pen, plain. destruct colors; [|reflexivity]. intros H. destruct (H eq_refl) as [_ B]. cbn. rewrite B. reflexivity. Qed.

Variable prompt : option str.
Let p := prompt_of prompt.
Hypothesis Hp : printable p.

Definition at_rest (c : console) above current : Prop := on_screen (eff c) above current /\ plain c.

Lemma prompt_written c above cur : at_rest c above cur -> List.length cur + List.length p <= width -> at_rest (write_prompt_prefix colors width prompt c) above (cur ++ painted colors (Some Cyan) p).
Proof.
  intros [O P] L. unfold write_prompt_prefix, p, prompt_of in *. destruct prompt as [s|].
  - destruct (write_out s (set_fg (Some Cyan) c)) as [A B]. split; [|exact B]. rewrite A, eff_fg, (pen_fg _ c P). apply put_text; auto.
  - cbn. rewrite app_nil_r. split; assumption.
Qed.
Lemma prompt_first c above : at_rest c above [] -> List.length p <= width -> at_rest (write_prompt_prefix colors width prompt c) above (painted colors (Some Cyan) p).
Proof. intros R L. apply (prompt_written c above [] R). exact L. Qed.
Lemma out_written data c above cur : at_rest c above cur -> printable data -> List.length cur + List.length data <= width ->
  at_rest (write_to colors width Stdout data c) above (cur ++ painted colors None data).
Proof.
  intros [O P] D L. destruct (write_out data c) as [A B]. split; [|exact B]. rewrite A, (pen_plain c P). unfold painted.
  replace (if colors then Style None None else no_style) with no_style by (destruct colors; reflexivity). apply put_text; auto.
Qed.
Lemma fg_written f data c above cur : at_rest c above cur -> printable data -> List.length cur + List.length data <= width ->
  at_rest (write_to colors width Stdout data (set_fg f c)) above (cur ++ painted colors f data).
Proof.
  intros [O P] D L. destruct (write_out data (set_fg f c)) as [A B]. split; [|exact B]. rewrite A, eff_fg, (pen_fg f c P). unfold painted. apply put_text; auto.
Qed.
Lemma newline_written c above cur : at_rest c above cur -> at_rest (write_to colors width Stdout [10%N] c) (above ++ [cur]) [].
Proof. intros [O P]. destruct (write_out [10%N] c) as [A B]. split; [|exact B]. rewrite A. apply put_newline. exact O. Qed.

Lemma answer c above x : at_rest c above (painted colors (Some Cyan) p) -> c_pending c = [] -> printable (text_of x) -> List.length p + List.length (text_of x) <= width ->
  at_rest (write_one colors width prompt c x) (above ++ [answer_row colors p x]) (painted colors (Some Cyan) p).
Proof.
  intros R Q P L. assert (Lp : List.length (painted colors (Some Cyan) p) = List.length p) by apply map_length.
  destruct x as [t|t]; cbn [write_one text_of answer_row] in *; unfold rw_writeln, writeln_to.
  - apply prompt_first; [|lia]. apply newline_written. apply fg_written; [assumption..|lia].
  - apply prompt_first; [|lia]. destruct R as [O PL].
    destruct (write_err t (set_fg (Some Red) c) Q) as (A & B & C). destruct (write_err [10%N] _ C) as (A' & B' & C'). split; [|exact B'].
    rewrite A'. apply put_newline. rewrite A, eff_fg, (pen_fg _ c PL). apply put_text; [exact O|exact P|lia].
Qed.
Lemma answers c above ws : at_rest c above (painted colors (Some Cyan) p) -> c_pending c = [] -> List.length ws <= 1 ->
  Forall (fun x => printable (text_of x) /\ List.length p + List.length (text_of x) <= width) ws ->
  at_rest (fold_left (write_one colors width prompt) ws c) (above ++ map (answer_row colors p) ws) (painted colors (Some Cyan) p).
Proof.
  intros R Q L F. destruct ws as [|x [|y ws]]; cbn in L; [|inversion F as [|? ? [F1 F2] _]; subst|lia].
  - cbn. rewrite app_nil_r. exact R.
  - cbn [fold_left map]. apply answer; assumption.
Qed.
Lemma rewritten f data c above cur : at_rest c above cur -> List.length cur <= N.to_nat 65535 -> printable data -> List.length p + List.length data <= width ->
  at_rest (rewrite_line colors width prompt data (set_fg f c)) above (painted colors (Some Cyan) p ++ painted colors f data).
Proof.
  intros [O P] L D W. unfold rewrite_line. cbn [set_fg c_fg c_bg].
  set (c1 := flush width _). assert (R1 : on_screen (eff c1) above []).
  { unfold c1. rewrite eff_flush, !eff_send, eff_fg. eapply clear_move; eassumption. }
  assert (P1 : c_fg c1 = f /\ c_bg c1 = c_bg c).
  { unfold c1, flush. cbn [c_fg c_bg]. split; [rewrite (proj1 (send_fg _ _ _)), (proj1 (send_fg _ _ _)); reflexivity|rewrite (proj2 (send_fg _ _ _)), (proj2 (send_fg _ _ _)); reflexivity]. }
  set (c2 := write_prompt_prefix colors width prompt c1).
  assert (R2 : on_screen (eff c2) above (painted colors (Some Cyan) p)).
  { unfold c2, write_prompt_prefix, p, prompt_of in *. destruct prompt as [s|]; [|exact R1]. destruct (write_out s (set_fg (Some Cyan) c1)) as [A _]. rewrite A, eff_fg. unfold pen. cbn [set_fg c_fg c_bg].
    replace (if colors then Style (Some Cyan) (c_bg c1) else no_style) with (if colors then Style (Some Cyan) None else no_style).
    - change (painted colors (Some Cyan) s) with ([] ++ painted colors (Some Cyan) s). unfold painted. apply put_text; [exact R1|exact Hp|cbn; lia].
    - unfold plain in P. destruct colors; [|reflexivity]. destruct (P eq_refl) as [_ B]. destruct P1 as [_ ->]. rewrite B. reflexivity. }
  destruct (write_out data (set_bg (c_bg c) (set_fg f c2))) as [A B]. split; [|exact B]. rewrite A, eff_bg, eff_fg.
  unfold painted. replace (pen (set_bg (c_bg c) (set_fg f c2))) with (if colors then Style f None else no_style).
  - apply put_text; [exact R2|exact D|]. unfold painted. rewrite map_length. lia.
  - unfold pen, plain in *. destruct colors; [|reflexivity]. destruct (P eq_refl) as [_ ->]. reflexivity.
Qed.
Lemma set_fg_same c : set_fg (c_fg c) c = c. Proof. destruct c. reflexivity. Qed.
Lemma at_rest_bare c above cur : at_rest c above cur -> colors = false -> forall f, at_rest (set_fg f c) above cur.
Proof. intros [O P] H f. split; [exact O|]. unfold plain. rewrite H. discriminate. Qed.
Lemma rewritten_plain data c above cur : at_rest c above cur -> List.length cur <= N.to_nat 65535 -> printable data -> List.length p + List.length data <= width ->
  at_rest (rewrite_line colors width prompt data c) above (painted colors (Some Cyan) p ++ painted colors None data).
Proof.
  intros R L D W. rewrite <- (set_fg_same c). pose proof (rewritten (c_fg c) data c above cur R L D W) as X.
  replace (painted colors None data) with (painted colors (c_fg c) data); [exact X|]. destruct R as [_ P]. unfold plain in P. unfold painted. destruct colors; [|reflexivity].
  destruct (P eq_refl) as [-> _]. reflexivity.
Qed.
Lemma erased c above cur x : at_rest c above (cur ++ [x]) -> List.length cur < width -> at_rest (write_to colors width Stdout [8; 32; 8]%N c) above cur.
Proof.
  intros [O P] L. destruct (write_out [8; 32; 8]%N c) as [A B]. split; [|exact B]. rewrite A, (pen_plain c P). eapply put_erase; eassumption.
Qed.
Lemma rest_flush c above cur : at_rest c above cur -> at_rest (flush width c) above cur.
Proof. intros [O P]. split; [exact O|exact P]. Qed.
End W.

(** ** Running *)
Section Run.
Context {St : Type}.
Variable f : str -> St -> list written * res flow * St.
Variables (colors : bool) (width : nat) (prompt : option str).
Let p := prompt_of prompt.
Hypothesis Hp : printable p.
Hypothesis Hwidth : (N.of_nat width <= 65535)%N.
Hypothesis Hf : forall s st ws a st', f s st = (ws, a, st') -> a <> Ok FContinue.
Let step := term_step colors width prompt (recorded f).
Let run := term_run colors width prompt (recorded f).
Variable first : list (list cell).
Definition above_of (log : list (str * list written)) : list (list cell) := first ++ flat_map (entry_rows colors p) log.
Definition current_of (buf : str) : list cell := painted colors (Some Cyan) p ++ painted colors None buf.
Definition fits (buf : str) : Prop := List.length p + List.length buf < width.
Definition entry_ok (entry : str * list written) : Prop :=
  List.length (snd entry) <= 1 /\ Forall (fun x => printable (text_of x) /\ List.length p + List.length (text_of x) <= width) (snd entry).
Definition settled (r : trepl (St * list (str * list written))) : Prop :=
  Forall entry_ok (snd (t_state r)) ->
  at_rest width colors (t_console r) (above_of (snd (t_state r))) (current_of (t_buf r)) /\ c_pending (t_console r) = [] /\
  printable (t_buf r) /\ Forall printable (c_data (t_history r)) /\ fits (t_buf r).
Definition ended (r : trepl (St * list (str * list written))) : Prop :=
  Forall entry_ok (snd (t_state r)) -> exists buf, at_rest width colors (t_console r) (above_of (snd (t_state r))) (current_of buf) /\ fits buf.

Lemma length_current buf : List.length (current_of buf) = List.length p + List.length buf.
Proof. unfold current_of, painted. rewrite app_length, !map_length. reflexivity. Qed.
Lemma width_small : width <= N.to_nat 65535. Proof. clear -Hwidth. lia. Qed.

Lemma step_settled r k : settled r -> match k with KChar c => is_control c = false | _ => True end ->
  match step r k with
  | TRunning r' => fits (t_buf r') -> settled r'
  | TStopped r' => ended r'
  | TCrashed => True
  end.
Proof.
  intros SS Hk. destruct r as [history cursor buf [st log] con]. unfold settled in SS. cbn [t_console t_state t_buf t_history snd] in SS.
  assert (MONO : forall e, Forall entry_ok (log ++ [e]) -> Forall entry_ok log /\ entry_ok e).
  { intros e G. apply Forall_app in G. destruct G as [G1 G2]. inversion G2; subst. auto. }
  assert (CORE : Forall entry_ok log ->
    match step (TRepl history cursor buf (st, log) con) k with
    | TRunning r' => fits (t_buf r') -> settled r'
    | TStopped r' => ended r'
    | TCrashed => True
    end).
  2: { destruct k; cbn [step term_step] in *; try (intros G; exact (CORE G G)).
       - destruct buf; [intros X G; exact (CORE G X G)|intros X G; exact (CORE G X G)].
       - unfold recorded in *. cbn [fst snd] in *. destruct (f buf st) as [[ws a] st'] eqn:Ef. destruct a as [a|e|]; [|exact I|exact I]. pose proof (Hf _ _ _ _ _ Ef) as NF.
         destruct a; [|contradiction|].
         + destruct (trim buf); [intros X G; exact (CORE (proj1 (MONO _ G)) X G)|].
           destruct (if match c_last history with Some l => str_eqb l buf | None => false end then Ok history else c_push buf history); [intros X G; exact (CORE (proj1 (MONO _ G)) X G)|exact I|exact I].
         + intros G. exact (CORE (proj1 (MONO _ G)) G).
       - destruct cursor; [intros X G; exact (CORE G X G)|]. destruct (c_index cursor history); [intros X G; exact (CORE G X G)|exact I|exact I].
       - destruct (Nat.ltb cursor (c_len history)); [|intros X G; exact (CORE G X G)]. destruct (Nat.eqb (S cursor) (c_len history)); [intros X G; exact (CORE G X G)|].
         destruct (c_index (S cursor) history); [intros X G; exact (CORE G X G)|exact I|exact I].
       - intros X G. exact (CORE G X G).
       - intros X G. exact (CORE G X G). }
  intros G0. specialize (SS G0). destruct SS as (R & Q & P & H & F).
  assert (RF : at_rest width colors (flush width con) (above_of log) (current_of buf)) by (apply rest_flush; exact R).
  assert (CP : forall s, List.length (current_of s) = List.length p + List.length s) by apply length_current. pose proof width_small as WS. unfold fits in F.
  assert (RW : forall s, printable s -> List.length p + List.length s < width -> at_rest width colors (flush width (rewrite_line colors width prompt s con)) (above_of log) (current_of s)).
  { intros s Ps Ls. apply rest_flush. apply (rewritten_plain width colors prompt Hp s con _ _ R); [rewrite CP; lia|exact Ps|fold p; lia]. }
  assert (SAME : settled (TRepl history cursor buf (st, log) (flush width con))) by (intros _; split; [exact RF|split; [reflexivity|split; [exact P|split; [exact H|exact F]]]]).
  destruct k; cbn [step term_step].
  - (* backspace *) destruct buf as [|b buf]; [intros _; exact SAME|]. intros Fb. cbn [t_buf] in Fb. set (l := b :: buf) in *.
    assert (El : l = removelast l ++ [last l 0%N]) by (apply app_removelast_last; discriminate).
    assert (Ll : List.length l = List.length (removelast l) + 1) by (rewrite El at 1; rewrite app_length; cbn; lia).
    intros _. split; cbn [t_console t_state t_buf t_history snd]; [|split; [reflexivity|]; split; [|split; [exact H|exact Fb]]].
    + apply rest_flush. apply (erased width colors con _ _ (last l 0%N, if colors then Style None None else no_style)); [|rewrite CP; lia].
      unfold current_of in *. rewrite <- app_assoc. replace (painted colors None (removelast l) ++ _) with (painted colors None l); [exact R|].
      rewrite El at 1. unfold painted. rewrite map_app. reflexivity.
    + apply Forall_forall. intros x Hx. unfold printable in P; rewrite Forall_forall in P. apply P. rewrite El. apply in_or_app. left. exact Hx.
  - (* enter *)
    assert (R1 : at_rest width colors (flush width (rw_writeln colors width prompt Stdout [] con)) (above_of log ++ [current_of buf]) (painted colors (Some Cyan) p)).
    { apply rest_flush. unfold rw_writeln, writeln_to. apply (prompt_first width colors prompt Hp); [|fold p; lia]. apply newline_written.
      replace (current_of buf) with (current_of buf ++ painted colors None []) by (cbn; apply app_nil_r). apply out_written; [exact R|constructor|rewrite CP; cbn; lia]. }
    set (con1 := flush width (rw_writeln colors width prompt Stdout [] con)) in *. assert (Q1 : c_pending con1 = []) by reflexivity. clearbody con1.
    unfold recorded. cbn [fst snd]. destruct (f buf st) as [[ws a] st'] eqn:Ef. pose proof (Hf _ _ _ _ _ Ef) as W2.
    assert (R2 : entry_ok (buf, ws) -> at_rest width colors (fold_left (write_one colors width prompt) ws con1) (above_of (log ++ [(buf, ws)])) (current_of [])).
    { intros [W1 W3]. cbn [snd] in W1, W3. replace (above_of (log ++ [(buf, ws)])) with ((above_of log ++ [current_of buf]) ++ map (answer_row colors p) ws).
      - replace (current_of []) with (painted colors (Some Cyan) p) by (unfold current_of; cbn; rewrite app_nil_r; reflexivity).
        apply (answers width colors prompt Hp); [exact R1|exact Q1|exact W1|fold p; exact W3].
      - unfold above_of. rewrite flat_map_app. cbn [flat_map]. rewrite app_nil_r, <- !app_assoc. reflexivity. }
    assert (F0 : fits []) by (unfold fits; cbn; lia). set (con2 := fold_left (write_one colors width prompt) ws con1) in *. clearbody con2.
    assert (DONE : forall h c, Forall printable (c_data h) -> settled (TRepl h c [] (st', log ++ [(buf, ws)]) (flush width con2))).
    { intros h c Hh G. split; [apply rest_flush; exact (R2 (proj2 (MONO _ G)))|]. split; [reflexivity|]. split; [constructor|]. split; [exact Hh|exact F0]. }
    destruct a as [a|e|]; [|exact I|exact I]. destruct a.
    + destruct (trim buf); [intros _; apply DONE; exact H|]. destruct (match c_last history with Some l => str_eqb l buf | None => false end); [intros _; apply DONE; exact H|].
      unfold c_push. destruct (Nat.eqb (List.length (c_data history)) (c_cap history)).
      * destruct (c_data history) as [|x rest] eqn:Eh; [exact I|]. intros _. apply DONE. cbn [c_data]. inversion H; subst. apply Forall_app. split; [assumption|constructor; [exact P|constructor]].
      * intros _. apply DONE. cbn [c_data]. apply Forall_app. split; [assumption|constructor; [exact P|constructor]].
    + contradiction.
    + intros G. exists []. split; [exact (R2 (proj2 (MONO _ G)))|exact F0].
  - (* up *) destruct cursor as [|cursor]; [intros _; exact SAME|]. unfold c_index. destruct (nth_error (c_data history) cursor) as [s|] eqn:En; [|exact I].
    assert (Ps : printable s) by (rewrite Forall_forall in H; apply H; eapply nth_error_In; exact En). intros Fs _. cbn [t_buf] in Fs.
    split; [apply RW; [exact Ps|exact Fs]|]. split; [reflexivity|]. split; [exact Ps|]. split; [exact H|exact Fs].
  - (* down *) destruct (Nat.ltb cursor (c_len history)); [|intros _; exact SAME]. destruct (Nat.eqb (S cursor) (c_len history)).
    + intros Fs _. cbn [t_buf] in Fs. split; [apply RW; [constructor|exact Fs]|]. split; [reflexivity|]. split; [constructor|]. split; [exact H|exact Fs].
    + unfold c_index. destruct (nth_error (c_data history) (S cursor)) as [s|] eqn:En; [|exact I].
      assert (Ps : printable s) by (rewrite Forall_forall in H; apply H; eapply nth_error_In; exact En). intros Fs _. cbn [t_buf] in Fs.
      split; [apply RW; [exact Ps|exact Fs]|]. split; [reflexivity|]. split; [exact Ps|]. split; [exact H|exact Fs].
  - (* char *) intros Fs _. cbn [t_buf] in Fs. assert (Pc : printable [c]) by (constructor; [exact Hk|constructor]).
    split; [|split; [reflexivity|]; split; [apply Forall_app; split; assumption|]; split; [exact H|exact Fs]]. cbn [t_console t_state t_buf snd]. apply rest_flush.
    replace (current_of (buf ++ [c])) with (current_of buf ++ painted colors None [c]) by (unfold current_of, painted; rewrite map_app, app_assoc; reflexivity).
    apply out_written; [exact R|exact Pc|]. unfold fits in Fs. rewrite app_length in Fs. rewrite CP. cbn in *. lia.
  - intros _. exists buf. split; [exact R|exact F].
  - intros _. exact SAME.
  - intros _. exists buf. split; [exact R|exact F].
Qed.
Lemma run_settled keys : forall r, settled r -> Forall (fun k => match k with KChar c => is_control c = false | _ => True end) keys ->
  (forall k1 k2 r', keys = k1 ++ k2 -> run r k1 = TRunning r' -> fits (t_buf r')) ->
  match run r keys with TRunning r' => settled r' | TStopped r' => ended r' | TCrashed => True end.
Proof.
  induction keys as [|k keys IH]; intros r S K F; [exact S|]. cbn [run term_run]. pose proof (step_settled r k S) as X. inversion K; subst. specialize (X H1). unfold step in X.
  destruct (term_step colors width prompt (recorded f) r k) as [r'|r'|] eqn:Es; [|exact X|exact I].
  apply IH; [|assumption|].
  - apply X. apply (F [k] keys); [reflexivity|]. cbn [run term_run]. unfold run. cbn [term_run]. rewrite Es. reflexivity.
  - intros k1 k2 r'' -> Hr. apply (F (k :: k1) k2 r''); [reflexivity|]. unfold run. cbn [term_run]. rewrite Es. exact Hr.
Qed.
End Run.
