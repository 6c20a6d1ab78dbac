(** * Specification: what the terminal shows *)
From Coq Require Import List NArith Bool Arith String.
From Verif Require Import ModelBase ModelText ModelRepl ModelTerminal.
Import ListNotations.

(** Text in a colour, if colours are on. *)
Definition painted (colors : bool) (c : option color) (s : str) : list cell := map (fun x => (x, if colors then Style c None else no_style)) s.
(** A row shows a text if it is that text and blanks after it. *)
Definition shows (r : list cell) (text : list cell) : Prop := exists n, r = text ++ repeat blank_cell n.
(** The screen: these finished rows, then this text with the cursor behind it. *)
Definition on_screen (s : screen) (above : list (list cell)) (current : list cell) : Prop :=
  Forall2 shows (rows s) above /\ shows (row s) current /\ col s = List.length current.
Definition printable (s : str) : Prop := Forall (fun c => is_control c = false) s.

Definition prompt_of (prompt : option str) : str := match prompt with Some p => p | None => [] end.
(** The rows a line and its answers leave: the line behind the prompt; then each answer, also behind a prompt. *)
Definition answer_row (colors : bool) (prompt : str) (x : written) : list cell :=
  painted colors (Some Cyan) prompt ++ match x with Good t => painted colors (Some Green) t | Bad t => painted colors (Some Red) t end.
Definition entry_rows (colors : bool) (prompt : str) (entry : str * list written) : list (list cell) :=
  (painted colors (Some Cyan) prompt ++ painted colors None (fst entry)) :: map (answer_row colors prompt) (snd entry).
Definition text_of (x : written) : str := match x with Good t => t | Bad t => t end.

(** The callback, keeping a log of the lines it was given and what it wrote. *)
Definition recorded {St} (f : str -> St -> list written * res flow * St) (s : str) (st : St * list (str * list written))
    : list written * res flow * (St * list (str * list written)) :=
  let '(ws, r, st') := f s (fst st) in (ws, r, (st', snd st ++ [(s, ws)])).

(** What was sent to a stream. *)
Definition sent_to (to : stream) (c : console) : list command :=
  flat_map (fun p => match fst p, to with Stdout, Stdout => [snd p] | Stderr, Stderr => [snd p] | _, _ => [] end) (c_sent c).
