(** * Specification: the REPL *)
From Coq Require Import List NArith Bool Arith String.
From Verif Require Import ModelBase ModelContext ModelText ModelDefault ModelRepl SpecLex.
Import ListNotations.

(** The last [n] elements of a list, or all if it has fewer. *)
Definition last_n {A} (n : nat) (l : list A) : list A := skipn (List.length l - n) l.
Definition last_of_list {A} (l : list A) : option A := match rev l with x :: _ => Some x | [] => None end.

(** ** The circular array: [reached cap a] if [a] results from [new(cap)] by any calls. *)
Section Array.
Context {A : Type}.
Inductive reached (cap : nat) : carray A -> Prop :=
| reached_new : reached cap (c_new cap)
| reached_push : forall a x a', reached cap a -> c_push x a = Ok a' -> reached cap a'
| reached_pop : forall a, reached cap a -> reached cap (snd (c_pop a))
| reached_remove : forall a i, reached cap a -> reached cap (snd (c_remove i a)).
(** Pushing a list of items, in order. *)
Fixpoint push_all (xs : list A) (a : carray A) : res (carray A) :=
  match xs with [] => Ok a | x :: xs' => rbind (c_push x a) (push_all xs') end.
End Array.

(** ** The prompt *)

(** The callback, keeping a log of the lines it was given and what it answered. *)
Definition logged {St} (f : str -> St -> res flow * St) (s : str) (st : St * list (str * flow)) : res flow * (St * list (str * flow)) :=
  let (r, st') := f s (fst st) in (r, (st', snd st ++ match r with Ok a => [(s, a)] | _ => [] end)).

(** The lines worth remembering, oldest first: of the lines the callback did not answer with [Continue] or [Break], those
    that are not blank and differ from the one remembered before. *)
Definition remember (kept : list str) (entry : str * flow) : list str :=
  let (s, a) := entry in
  match a with
  | FNone => if match trim s with [] => true | _ => false end then kept
             else match last_of_list kept with Some l => if str_eqb l s then kept else kept ++ [s] | None => kept ++ [s] end
  | _ => kept
  end.
Definition remembered (log : list (str * flow)) : list str := fold_left remember log [].

(** The lines typed with these keys (letters, backspace, Enter), starting from the unfinished line [line]. *)
Fixpoint lines_typed (line : str) (keys : list key) : list str :=
  match keys with
  | [] => []
  | KChar c :: keys' => lines_typed (line ++ [c]) keys'
  | KBackspace :: keys' => lines_typed (removelast line) keys'
  | KEnter :: keys' => line :: lines_typed [] keys'
  | _ :: keys' => lines_typed line keys'
  end.

(** What the terminal shows after the prompt (one cell for every character). *)
Definition show (line : str) (o : output) : str :=
  match o with Typed c => line ++ [c] | Erase => removelast line | Newline => [] | Rewrite s => s end.
Definition displayed (out : list output) : str := fold_left show out [].

(** ** The lines *)
Definition no_equals (s : str) : Prop := ~ In 61%N s.
(** Everything but the variables. *)
Definition same_but_variables {V W} (d d' : dctx V W) : Prop :=
  d_consts d' = d_consts d /\ d_funs d' = d_funs d /\ d_unary d' = d_unary d /\ d_binary d' = d_binary d /\ d_config d' = d_config d.
(** A name that can be assigned: not that of a constant, in any case; in debug builds also a valid name. *)
Definition assignable {V W} (E : env) (dbg : bool) (d : dctx V W) (name : str) : Prop :=
  (dbg = true -> check_token_name name = Ok tt) /\ forall k v, In (k, v) (d_consts d) -> eq_ignore_case E k name = false.

(** A session: lines typed at the prompt one after another, each with the replies it printed, from context [d] to [d']. *)
Section Sessions.
Context {V W : Type}.
Variable E : env.
Variable dbg : bool.
Variable parse : str -> option V.
Variable is_binary : bool.
Inductive session : dctx V W -> W -> list (str * list (reply (V := V))) -> dctx V W -> W -> Prop :=
| session_none : forall d w, session d w [] d w
| session_line : forall d w s rs d1 w1 log d2 w2, loop_line E dbg parse is_binary s (d, w, []) = (Ok FNone, (d1, w1, rs)) ->
    session d1 w1 log d2 w2 -> session d w ((s, rs) :: log) d2 w2.
End Sessions.

(** What a line wrote, as its reader sees it: an assignment [name = number] that printed nothing wrote the number to the
    name; a line that printed a result wrote it to [$result]. *)
Inductive wrote {V} (parse : str -> option V) : str * list (reply (V := V)) -> option (str * V) -> Prop :=
| wrote_assigned : forall a b v, no_equals a -> no_equals b -> parse (trim b) = Some v -> wrote parse (a ++ 61%N :: b, []) (Some (trim a, v))
| wrote_result : forall s v, wrote parse (s, [Result v]) (Some (lit "$result", v))
| wrote_nothing : forall s, wrote parse (s, [Message]) None.
(** The last value written to a name. *)
Fixpoint last_written {V} (x : str) (writes : list (option (str * V))) (before : option V) : option V :=
  match writes with
  | [] => before
  | Some (n, v) :: rest => last_written x rest (if str_eqb n x then Some v else before)
  | None :: rest => last_written x rest before
  end.
