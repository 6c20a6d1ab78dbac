(** * Vocabulary for C101: what was added to a context, read off the log of the calls made *)
From Coq Require Import List NArith.
From Verif Require Import ModelBase ModelContext ModelText ModelDefault ModelJson SpecText.
Import ListNotations.

Section Log.
Context {V W : Type}.
Notation log := (list (call V W * res (option V))).

Definition ascii_names (x : call V W) : Prop :=
  match x with
  | SetVariable n _ | AddConstant n _ => ascii_string n
  | AddFunction f n => ascii_string n /\ Forall ascii_string (fn_aliases f)
  | AddUnary f n => ascii_string n /\ Forall ascii_string (uf_aliases f)
  | AddBinary f n => ascii_string n /\ Forall ascii_string (bf_aliases f)
  end.
Definition all_ascii_names (h : log) : Prop := forall x r, In (x, r) h -> ascii_names x.
Definition no_panic (h : log) : Prop := forall x, ~ In (x, Panic) h.

(** Under which name a function added as [n] with the aliases [l] is entered: each alias, and [n] itself, unless one of the aliases is
    another spelling of it. *)
Definition entered_as (k : str) (l : list str) (n : str) : Prop := In k l \/ k = n /\ Forall (fun a => ~ ascii_alike n a) l.
Definition function_entered (h : log) (k : str) (f : func V W) : Prop := exists n o, In (AddFunction f n, Ok o) h /\ entered_as k (fn_aliases f) n.
Definition unary_entered (h : log) (k : str) (f : ufunc V W) : Prop := exists n o, In (AddUnary f n, Ok o) h /\ entered_as k (uf_aliases f) n.
Definition binary_entered (h : log) (k : str) (f : bfunc V W) : Prop := exists n o, In (AddBinary f n, Ok o) h /\ entered_as k (bf_aliases f) n.

(** [n] is the spelling in which a constant was first added, [v] the value it was last given, in whatever spelling. *)
Definition first_spelling (n : str) (h : log) : Prop :=
  exists h1 v o h2, h = h1 ++ (AddConstant n v, Ok o) :: h2 /\ forall m v' o', In (AddConstant m v', Ok o') h1 -> ~ ascii_alike m n.
Definition last_value (n : str) (v : V) (h : log) : Prop :=
  exists h1 m o h2, h = h1 ++ (AddConstant m v, Ok o) :: h2 /\ ascii_alike m n /\ forall m' v' o', In (AddConstant m' v', Ok o') h2 -> ~ ascii_alike m' n.
End Log.

(** Exactly one entry of [l] has the property. *)
Definition exactly_one {A} (P : A -> Prop) (l : list A) : Prop := exists l1 x l2, l = l1 ++ x :: l2 /\ P x /\ Forall (fun y => ~ P y) (l1 ++ l2).

(** What a list of entries tells about the functions of one kind: [get] finds a function by its name, [entered k f] says that [f] is entered under
    the name [k]. Each entry names a function that can be used, with its aliases and description; each usable name is another spelling of
    the name of exactly one entry; and the entries are the names and aliases added. *)
Definition tells {F} (aliases : F -> list str) (about : F -> option str) (get : str -> option F) (entered : str -> F -> Prop) (whole : Prop) (l : list fn_info) : Prop :=
  (forall i, In i l -> exists f, get (i_name i) = Some f /\ i_aliases i = aliases f /\ i_description i = about f) /\
  (forall q f, ascii_string q -> get q = Some f -> exactly_one (fun i => ascii_alike q (i_name i)) l) /\
  (whole -> forall i, In i l <-> exists f, entered (i_name i) f /\ i_aliases i = aliases f /\ i_description i = about f).
