(** * The REPL: /repo/eval/src/collections/carray.rs, /repo/eval/src/repl/repl.rs and /repo/eval/src/repl/mod.rs *)
From Coq Require Import List NArith Bool Arith String.
From Verif Require Import ModelBase ModelContext ModelText ModelDefault ModelSplit ModelTokenizer.
Import ListNotations.

(** ** carray.rs *)
Section Circular.
Context {A : Type}.
(** carray.rs 6-9 *)
Record carray := CArray { c_data : list A; c_cap : nat }.
(** carray.rs 13-18. That [Vec::with_capacity] fails for a capacity the memory cannot hold is not modelled. *)
Definition c_new (cap : nat) : carray := CArray [] cap.
(** carray.rs 20-25: [Vec::remove(0)] panics on an empty vector. *)
Definition c_push (item : A) (a : carray) : res carray :=
  if Nat.eqb (List.length (c_data a)) (c_cap a) then
    match c_data a with
    | [] => Panic
    | _ :: rest => Ok (CArray (rest ++ [item]) (c_cap a))
    end
  else Ok (CArray (c_data a ++ [item]) (c_cap a)).
(** carray.rs 27-29 *)
Definition c_pop (a : carray) : option A * carray :=
  match rev (c_data a) with
  | [] => (None, a)
  | x :: r => (Some x, CArray (rev r) (c_cap a))
  end.
(** carray.rs 31-37 *)
Definition c_remove (index : nat) (a : carray) : option A * carray :=
  if Nat.leb (List.length (c_data a)) index then (None, a)
  else (nth_error (c_data a) index, CArray (firstn index (c_data a) ++ skipn (S index) (c_data a)) (c_cap a)).
(** carray.rs 39-45 *)
Definition c_len (a : carray) : nat := List.length (c_data a).
Definition c_capacity (a : carray) : nat := c_cap a.
(** carray.rs 47-49 *)
Definition c_get (index : nat) (a : carray) : option A := nth_error (c_data a) index.
(** carray.rs 60-66: indexing panics out of range. *)
Definition c_index (index : nat) (a : carray) : res A := match nth_error (c_data a) index with Some x => Ok x | None => Panic end.
(** [last] of the slice (carray.rs 83-89). *)
Definition c_last (a : carray) : option A := nth_error (c_data a) (pred (List.length (c_data a))).
End Circular.
Arguments carray : clear implicits.

(** ** repl.rs *)

(** What [event::read] returns. [KOther]: Delete, Left, Right, keys without effect, events that are no keys, and a poll that
    times out. [KInterrupt]: the Ctrl-C handler ran since the last event (repl.rs 29-32, 44). *)
Inductive key := KBackspace | KEnter | KUp | KDown | KChar (c : char) | KEsc | KOther | KInterrupt.
(** What the evaluation callback returns: [None], [Some(Continue)] or [Some(Break)]. *)
Inductive flow := FNone | FContinue | FBreak.

Section Repl.
Context {St : Type}.
(** The callback, with its state. It can panic ([Err] does not occur). *)
Variable f : str -> St -> res flow * St.

(** What is written to the terminal on the line of the prompt. [Newline]: [writeln], which writes the prompt on the next
    line; also what the callback writes, as it only uses [writeln] and [writeln_err]. *)
Inductive output := Typed (c : char) | Erase | Newline | Rewrite (s : str).

(** repl.rs 26-27, 34: the local variables. *)
Record repl := Repl { r_history : carray str; r_cursor : nat; r_buf : str; r_state : St; r_out : list output }.
Inductive outcome := Running (r : repl) | Stopped (r : repl) | Crashed.

(** repl.rs 50-110: one event. [buf.pop()] removes the last char. *)
Definition repl_step (r : repl) (k : key) : outcome :=
  let (history, cursor, buf, st, out) := r in
  match k with
  | KBackspace => Running (match buf with [] => r | _ => Repl history cursor (removelast buf) st (out ++ [Erase]) end)
  | KEnter =>
      let s := buf in
      let out := out ++ [Newline] in
      match f s st with
      | (Ok FBreak, st') => Stopped (Repl history cursor [] st' out)
      | (Ok FContinue, st') => Running (Repl history cursor [] st' out)
      | (Ok FNone, st') =>
          match trim s with
          | [] => Running (Repl history cursor [] st' out)
          | _ =>
              match (if match c_last history with Some l => str_eqb l s | None => false end then Ok history else c_push s history) with
              | Ok history' => Running (Repl history' (c_len history') [] st' out)
              | _ => Crashed
              end
          end
      | _ => Crashed
      end
  | KUp =>
      match cursor with
      | 0 => Running r
      | S cursor' => match c_index cursor' history with
                     | Ok s => Running (Repl history cursor' s st (out ++ [Rewrite s]))
                     | _ => Crashed
                     end
      end
  | KDown =>
      if Nat.ltb cursor (c_len history) then
        if Nat.eqb (S cursor) (c_len history) then Running (Repl history (S cursor) [] st (out ++ [Rewrite []]))
        else match c_index (S cursor) history with
             | Ok s => Running (Repl history (S cursor) s st (out ++ [Rewrite s]))
             | _ => Crashed
             end
      else Running r
  | KChar c => Running (Repl history cursor (buf ++ [c]) st (out ++ [Typed c]))
  | KEsc => Stopped r
  | KOther => Running r
  | KInterrupt => Stopped r
  end.

(** repl.rs 26-42, 155: the state before the first event; the pre-text or the prompt has been written. *)
Definition repl_start (history_size : option nat) (st : St) : repl :=
  Repl (c_new (match history_size with Some n => n | None => 100 end)) 0 [] st [].
(** repl.rs 44-115 on a finite sequence of events. *)
Fixpoint repl_run (r : repl) (keys : list key) : outcome :=
  match keys with
  | [] => Running r
  | k :: keys' => match repl_step r k with Running r' => repl_run r' keys' | o => o end
  end.
End Repl.
Arguments repl : clear implicits. Arguments outcome : clear implicits.

(** ** mod.rs *)

(** [str::split] at a char. *)
Fixpoint split_on (c : char) (s : str) : list str :=
  match s with
  | [] => [[]]
  | x :: t => if char_eqb x c then [] :: split_on c t
              else match split_on c t with p :: ps => (x :: p) :: ps | [] => [[x]] end
  end.

Section EvalLoop.
Context {V W : Type}.
Variable E : env.
Variable dbg : bool.
(** [N::from_str] *)
Variable parse : str -> option V.
Variable is_binary : bool.

(** mod.rs 60 *)
Definition result_name : str := lit "$result".

(** What a line prints: the result, or an error. *)
Inductive reply := Result (v : V) | Message.

(** mod.rs 67-68, 71-72: the context is made by the factory. [unwrap] panics on an error. *)
Definition loop_start (zero : V) (context : dctx V W) : res (dctx V W) :=
  match set_variable E dbg result_name zero context with
  | (Ok _, d) => Ok d
  | _ => Panic
  end.

(** mod.rs 81-130: the callback. The state is the evaluator's context and the world; [reply]s are collected. *)
Definition loop_line (s : str) (st : dctx V W * W * list reply) : res flow * (dctx V W * W * list reply) :=
  let '(d, w, out) := st in
  let expression := trim s in
  if str_eqb expression (lit "exit") then (Ok FBreak, st)
  else if existsb (char_eqb 61%N) expression then
    match map trim (split_on 61%N expression) with
    | [variable; value] =>
        match parse value with
        | Some v =>
            match set_variable E dbg variable v d with
            | (Ok _, d') => (Ok FNone, (d', w, out))
            | (Err _, d') => (Ok FNone, (d', w, out ++ [Message]))
            | (Panic, d') => (Panic, (d', w, out))
            end
        | None => (Ok FNone, (d, w, out ++ [Message]))
        end
    | _ => (Ok FNone, (d, w, out ++ [Message]))
    end
  else
    match eval (to_ctx E d) parse (split_into_tokens (repl_splitter is_binary)) dbg expression w with
    | (Ok v, w') =>
        match set_variable E dbg result_name v d with
        | (Ok _, d') => (Ok FNone, (d', w', out ++ [Result v]))
        | (Err _, d') => (Ok FNone, (d', w', out ++ [Result v; Message]))
        | (Panic, d') => (Panic, (d', w', out))
        end
    | (Err _, w') => (Ok FNone, (d, w', out ++ [Message]))
    | (Panic, w') => (Panic, (d, w', out))
    end.
End EvalLoop.
