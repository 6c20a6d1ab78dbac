(** * Specification: the words of the four splitters *)
From Coq Require Import List NArith Bool Arith String.
From Verif Require Import ModelBase ModelText SpecLex.
Import ListNotations.
Local Open Scope N_scope.

(** With [bin], a [b] directly followed by a 0 or 1 starts a binary number: [b], that digit, and all digits after it. *)
Definition binary_word (s : str) : Prop := exists d t, s = 98 :: d :: t /\ (d = 48 \/ d = 49) /\ Forall digit t.
(** With [dollar], a [$] starts a name: [$] and the letters, digits and underscores after it; and it is not an operator. *)
Definition dollar_word (s : str) : Prop := exists t, s = 36 :: t /\ Forall (fun x => letter x \/ digit x) t.
Definition operator_of (dollar : bool) (c : char) : Prop := operator_char c /\ (dollar = true -> c <> 36).

(** [reads_as bin dollar s ws]: as [lexes] (SpecLex) with these two kinds of words added. *)
Inductive reads_as (bin dollar : bool) : str -> list str -> Prop :=
| reads_end : reads_as bin dollar [] []
| reads_space : forall c s ws, is_whitespace c = true -> reads_as bin dollar s ws -> reads_as bin dollar (c :: s) ws
| reads_binary : forall n s ws, bin = true -> binary_word n -> stops digit s -> reads_as bin dollar s ws -> reads_as bin dollar (n ++ s) (n :: ws)
| reads_dollar : forall n s ws, dollar = true -> dollar_word n -> stops (fun c => letter c \/ digit c) s -> reads_as bin dollar s ws ->
    reads_as bin dollar (n ++ s) (n :: ws)
| reads_number : forall n s ws, number_word n -> stops (fun c => digit c \/ c = point) s -> reads_as bin dollar s ws -> reads_as bin dollar (n ++ s) (n :: ws)
| reads_second_point : forall n s ws, number_word n -> In point n -> reads_as bin dollar s ws -> reads_as bin dollar (n ++ point :: s) (n :: ws)
| reads_ident : forall n s ws, ident_word n -> (bin = true -> forall d t, n = 98 :: d :: t -> d <> 48 /\ d <> 49) ->
    stops (fun c => letter c \/ digit c) s -> reads_as bin dollar s ws -> reads_as bin dollar (n ++ s) (n :: ws)
| reads_operator : forall n s ws, n <> [] -> Forall (operator_of dollar) n -> (forall c t, n = c :: t -> ~ letter c) -> stops (operator_of dollar) s ->
    reads_as bin dollar s ws -> reads_as bin dollar (n ++ s) (n :: ws)
| reads_other : forall c s ws, is_whitespace c = false -> ~ digit c -> ~ letter c -> ~ operator_char c -> reads_as bin dollar s ws ->
    reads_as bin dollar (c :: s) ([c] :: ws).
