(** * What the REPL writes: /repo/eval/src/writer.rs, style.rs, repl/repl_writer.rs, and repl/repl.rs with its writes *)
From Coq Require Import List NArith Bool Arith String.
From Verif Require Import ModelBase ModelContext ModelText ModelDefault ModelTokenizer ModelRepl.
Import ListNotations.

(** crossterm's [Color], those of writer.rs 118-153 *)
Inductive color := Red | Green | Yellow | Blue | Magenta | Cyan | White | Grey | Black
  | DarkRed | DarkGreen | DarkYellow | DarkBlue | DarkMagenta | DarkCyan | DarkGrey.
(** style.rs 4-8 *)
Record style := Style { s_fg : option color; s_bg : option color }.
Definition no_style : style := Style None None.

(** ** The terminal's side

    What crossterm sends: text in a style ([StyledContent]: the colours, the text, a reset), [Clear(CurrentLine)] and
    [MoveLeft(n)]. The escape sequences themselves are not modelled. *)
Inductive command := Print (s : str) (st : style) | ClearLine | MoveLeft (n : nat).

(** The screen: finished rows, the current row, the column of the cursor; a cell is a character and its style. [width] is the
    number of columns. *)
Definition cell : Type := char * style.
Definition blank_cell : cell := (32%N, no_style).
Record screen := Screen { rows : list (list cell); row : list cell; col : nat }.
Definition put_cell (n : nat) (x : cell) (r : list cell) : list cell := firstn n r ++ repeat blank_cell (n - List.length r) ++ x :: skipn (S n) r.
(** One character: line feed, backspace, one that is shown (in one cell; a full row is continued on the next). Other control
    characters are ignored (a simplification: no theorem is about them). *)
Definition put (width : nat) (st : style) (s : screen) (c : char) : screen :=
  if N.eqb c 10 then Screen (rows s ++ [row s]) [] 0
  else if N.eqb c 8 then Screen (rows s) (row s) (pred (col s))
  else if is_control c then s
  else if Nat.eqb (col s) width then Screen (rows s ++ [row s]) [(c, st)] 1
  else Screen (rows s) (put_cell (col s) (c, st) (row s)) (S (col s)).
Definition perform (width : nat) (s : screen) (k : command) : screen :=
  match k with
  | Print text st => fold_left (put width st) text s
  | ClearLine => Screen (rows s) [] (col s)
  | MoveLeft n => Screen (rows s) (row s) (col s - n)
  end.

(** Both standard streams are the terminal. stdout is buffered by lines: a write that contains a line feed, and [flush],
    deliver what is pending. stderr is not buffered. [c_sent]: everything sent so far, for each stream in order. *)
Inductive stream := Stdout | Stderr.
Record console := Console { c_fg : option color; c_bg : option color; c_screen : screen; c_pending : list command; c_sent : list (stream * command) }.

Section Writer.
(** [use_colors()]: main.rs 82-84 sets it once, at the start; writer.rs 18-27. *)
Variable colors : bool.
Variable width : nat.
Variable prompt_prefix : option str.

(** [flush] of stdout (writer.rs 43-46) *)
Definition flush (c : console) : console := Console (c_fg c) (c_bg c) (fold_left (perform width) (c_pending c) (c_screen c)) [] (c_sent c).
Definition send (to : stream) (k : command) (c : console) : console :=
  match to with
  | Stderr => Console (c_fg c) (c_bg c) (perform width (c_screen c) k) (c_pending c) (c_sent c ++ [(Stderr, k)])
  | Stdout =>
      let c' := Console (c_fg c) (c_bg c) (c_screen c) (c_pending c ++ [k]) (c_sent c ++ [(Stdout, k)]) in
      match k with Print s _ => if existsb (N.eqb 10) s then flush c' else c' | _ => c' end
  end.
(** writer.rs 48-56, 60-64 *)
Definition set_fg (f : option color) (c : console) : console := Console f (c_bg c) (c_screen c) (c_pending c) (c_sent c).
Definition set_bg (b : option color) (c : console) : console := Console (c_fg c) b (c_screen c) (c_pending c) (c_sent c).
Definition reset (c : console) : console := set_bg None (set_fg None c).
(** writer.rs 66-83 ([write]) and 90-107 ([write_err]) *)
Definition write_to (to : stream) (data : str) (c : console) : console :=
  if negb colors then send to (Print data no_style) c
  else reset (send to (Print data (Style (c_fg c) (c_bg c))) c).
(** writer.rs 85-88, 109-112 *)
Definition writeln_to (to : stream) (data : str) (c : console) : console := write_to to [10%N] (write_to to data c).

(** repl_writer.rs 52-56 *)
Definition write_prompt_prefix (c : console) : console :=
  match prompt_prefix with Some prefix => write_to Stdout prefix (set_fg (Some Cyan) c) | None => c end.
(** repl_writer.rs 62-65, 71-74 *)
Definition rw_writeln (to : stream) (data : str) (c : console) : console := write_prompt_prefix (writeln_to to data c).
(** repl_writer.rs 76-89; [execute!] flushes; [u16::MAX] is 65535 *)
Definition rewrite_line (data : str) (c : console) : console :=
  let fg := c_fg c in
  let bg := c_bg c in
  let c1 := flush (send Stdout (MoveLeft (N.to_nat 65535)) (send Stdout ClearLine c)) in
  write_to Stdout data (set_bg bg (set_fg fg (write_prompt_prefix c1))).

(** ** repl.rs, with the writes

    What the callback writes (mod.rs 93-125): [writer.green().writeln(text)] or [writer.red().writeln_err(text)]. *)
Inductive written := Good (text : str) | Bad (text : str).
Definition write_one (c : console) (x : written) : console :=
  match x with
  | Good text => rw_writeln Stdout text (set_fg (Some Green) c)
  | Bad text => rw_writeln Stderr text (set_fg (Some Red) c)
  end.

Context {St : Type}.
(** The callback: what it writes, its answer, its state. *)
Variable f : str -> St -> list written * res flow * St.

Record trepl := TRepl { t_history : carray str; t_cursor : nat; t_buf : str; t_state : St; t_console : console }.
Inductive toutcome := TRunning (r : trepl) | TStopped (r : trepl) | TCrashed.

(** repl.rs 44-114: one event. As in [ModelRepl.repl_step], with what is written. A poll that times out (47) does not flush;
    it is treated like the keys without effect, which do. *)
Definition term_step (r : trepl) (k : key) : toutcome :=
  let (history, cursor, buf, st, con) := r in
  match k with
  | KBackspace =>
      match buf with
      | [] => TRunning (TRepl history cursor buf st (flush con))
      | _ => TRunning (TRepl history cursor (removelast buf) st (flush (write_to Stdout [8; 32; 8]%N con)))
      end
  | KEnter =>
      let s := buf in
      let con := flush (rw_writeln Stdout [] con) in
      match f s st with
      | (ws, Ok FBreak, st') => TStopped (TRepl history cursor [] st' (fold_left write_one ws con))
      | (ws, Ok FContinue, st') => TRunning (TRepl history cursor [] st' (fold_left write_one ws con))
      | (ws, Ok FNone, st') =>
          let con := fold_left write_one ws con in
          match trim s with
          | [] => TRunning (TRepl history cursor [] st' (flush con))
          | _ =>
              match (if match c_last history with Some l => str_eqb l s | None => false end then Ok history else c_push s history) with
              | Ok history' => TRunning (TRepl history' (c_len history') [] st' (flush con))
              | _ => TCrashed
              end
          end
      | _ => TCrashed
      end
  | KUp =>
      match cursor with
      | 0 => TRunning (TRepl history cursor buf st (flush con))
      | S cursor' => match c_index cursor' history with
                     | Ok s => TRunning (TRepl history cursor' s st (flush (rewrite_line s con)))
                     | _ => TCrashed
                     end
      end
  | KDown =>
      if Nat.ltb cursor (c_len history) then
        if Nat.eqb (S cursor) (c_len history) then TRunning (TRepl history (S cursor) [] st (flush (rewrite_line [] con)))
        else match c_index (S cursor) history with
             | Ok s => TRunning (TRepl history (S cursor) s st (flush (rewrite_line s con)))
             | _ => TCrashed
             end
      else TRunning (TRepl history cursor buf st (flush con))
  | KChar c => TRunning (TRepl history cursor (buf ++ [c]) st (flush (write_to Stdout [c] con)))
  | KEsc => TStopped r
  | KOther => TRunning (TRepl history cursor buf st (flush con))
  | KInterrupt => TStopped r
  end.

(** repl.rs 34-42: what is written before the first event, on an empty screen *)
Definition term_start (history_size : option nat) (pre_text : option str) (st : St) : trepl :=
  let con := Console None None (Screen [] [] 0) [] [] in
  TRepl (c_new (match history_size with Some n => n | None => 100 end)) 0 [] st
    (flush (match pre_text with Some t => rw_writeln Stdout t (set_fg (Some Green) con) | None => write_prompt_prefix con end)).
Fixpoint term_run (r : trepl) (keys : list key) : toutcome :=
  match keys with
  | [] => TRunning r
  | k :: keys' => match term_step r k with TRunning r' => term_run r' keys' | o => o end
  end.
(** repl.rs 116-118; at the end of the program stdout is flushed (by the standard library). *)
Definition term_exit (exit_text : option str) (con : console) : console :=
  flush (match exit_text with Some t => rewrite_line t (set_fg (Some Yellow) con) | None => con end).
End Writer.
Arguments trepl : clear implicits. Arguments toutcome : clear implicits.

(** ** mod.rs, with the writes *)

(** mod.rs 67-131: [show] is [Display]; the text of an error is not modelled, [message] is any function of the line. *)
Definition term_line {V W} (E : env) (dbg : bool) (parse : str -> option V) (show : V -> str) (message : str -> str) (is_binary : bool)
    (s : str) (st : dctx V W * W) : list written * res flow * (dctx V W * W) :=
  match loop_line E dbg parse is_binary s (fst st, snd st, []) with
  | (r, (d, w, out)) => (map (fun x => match x with Result v => Good (show v) | Message => Bad (message s) end) out, r, (d, w))
  end.
(** mod.rs 74-79 *)
Definition repl_prompt : str := lit ">>> ".
Definition repl_pre_text : str := lit "Press CTRL+C or type 'exit' to Exit".
Definition repl_exit_text : str := lit "Bye bye!".

(** ** main.rs 80-91: the subcommand [eval]; [error_text] is the error's [Display]. With the exit status of the program, 0 in
    both cases as [main] returns. *)
Definition main_eval (colors : bool) (width : nat) (result : res str) (error_text : str) (c : console) : res (console * nat) :=
  match result with
  | Ok s => Ok (flush width (writeln_to colors width Stdout s c), 0)
  | Err _ => Ok (flush width (writeln_to colors width Stderr error_text (set_fg (Some Red) c)), 0)
  | Panic => Panic
  end.
