(** * Specification: how a string is cut into words *)
From Coq Require Import List NArith Bool Arith String.
From Verif Require Import ModelBase ModelText.
Import ListNotations.
Local Open Scope N_scope.

(** ASCII classes of characters: digits, identifier characters, operator characters. *)
Definition digit (c : char) : Prop := 48 <= c <= 57.
Definition letter (c : char) : Prop := (65 <= c <= 90) \/ (97 <= c <= 122) \/ c = 95.
Definition point : char := 46.
Definition operator_char (c : char) : Prop := In c (lit "~`!@#$%^&*-+_:;""'|\?.<>/=,").

(** The words: numbers (digits, or digits with one decimal point after the first digit), identifiers, runs of operator
    characters, and single other characters. *)
Definition whole_number (s : str) : Prop := s <> [] /\ Forall digit s.
Definition number_word (s : str) : Prop :=
  whole_number s \/ exists a b, s = a ++ point :: b /\ whole_number a /\ Forall digit b.
Definition ident_word (s : str) : Prop := exists c t, s = c :: t /\ letter c /\ Forall (fun x => letter x \/ digit x) t.
Definition operator_word (s : str) : Prop := s <> [] /\ Forall operator_char s /\ forall c t, s = c :: t -> ~ letter c.
Definition other_word (s : str) : Prop :=
  exists c, s = [c] /\ is_whitespace c = false /\ ~ digit c /\ ~ letter c /\ ~ operator_char c.

(** [s] does not begin with a character of the class [p]. *)
Definition stops (p : char -> Prop) (s : str) : Prop := match s with c :: _ => ~ p c | [] => True end.

(** [lexes s ws]: reading [s] from the left gives the words [ws], each as long as possible; white space separates
    words and is dropped. One oddity: after a number that has a decimal point already, another point is dropped. *)
Inductive lexes : str -> list str -> Prop :=
| lexes_end : lexes [] []
| lexes_space : forall c s ws, is_whitespace c = true -> lexes s ws -> lexes (c :: s) ws
| lexes_number : forall n s ws, number_word n -> stops (fun c => digit c \/ c = point) s -> lexes s ws -> lexes (n ++ s) (n :: ws)
| lexes_second_point : forall n s ws, number_word n -> In point n -> lexes s ws -> lexes (n ++ point :: s) (n :: ws)
| lexes_ident : forall n s ws, ident_word n -> stops (fun c => letter c \/ digit c) s -> lexes s ws -> lexes (n ++ s) (n :: ws)
| lexes_operator : forall n s ws, operator_word n -> stops operator_char s -> lexes s ws -> lexes (n ++ s) (n :: ws)
| lexes_other : forall n s ws, other_word n -> lexes s ws -> lexes (n ++ s) (n :: ws).

Definition a_word (s : str) : Prop := number_word s \/ ident_word s \/ operator_word s \/ other_word s.

(** A number is followed by a second decimal point somewhere in the string: "12.5.", "3..", ... *)
Definition second_point (s : str) : Prop :=
  exists a d ds b, s = a ++ d :: point :: ds ++ point :: b /\ digit d /\ Forall digit ds.

Definition without_spaces (s : str) : str := filter (fun c => negb (is_whitespace c)) s.

(** [sub a b]: [a] is [b] with some characters left out. *)
Inductive sub {A} : list A -> list A -> Prop :=
| sub_nil : sub [] []
| sub_keep : forall x a b, sub a b -> sub (x :: a) (x :: b)
| sub_drop : forall x a b, sub a b -> sub a (x :: b).

Definition blank (s : str) : Prop := Forall (fun c => is_whitespace c = true) s.
Definition ascii (s : str) : Prop := Forall (fun c => c < 128) s.

(** [written ws s]: the string [s] is the words [ws] in order with white space around them and at least one white space
    character between every two. *)
Definition separated (s : str) : Prop := match s with c :: _ => is_whitespace c = true | [] => True end.
Inductive written : list str -> str -> Prop :=
| written_end : forall w, blank w -> written [] w
| written_word : forall w t ws s, blank w -> written ws s -> separated s -> written (t :: ws) (w ++ t ++ s).
