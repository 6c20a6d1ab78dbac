(** * Specification: splitters with rules of one's own *)
From Coq Require Import List NArith Bool Arith String.
From Verif Require Import ModelBase ModelText ModelSplit SpecLex.
Import ListNotations.

(** A rule is called with the current character and the characters after it, and leaves some of them. A rule is well behaved if it only
    consumes, and consumes nothing when it leaves the character to the other rules. *)
Definition well_behaved (r : rule) : Prop := forall c s, (exists used, s = used ++ snd (r c s)) /\ (fst (r c s) = Continue -> snd (r c s) = s).
Definition leaves (r : rule) (s : str) : Prop := match s with c :: t => fst (r c t) = Continue | [] => True end.

(** [cut rules s ws]: from the left, the first rule that does not leave a character decides: it gives a word, or drops what it consumes;
    a character that all rules leave is a word of its own. *)
Inductive cut (rules : list rule) : str -> list str -> Prop :=
| cut_end : cut rules [] []
| cut_word : forall before r after c s w s' ws, rules = before ++ r :: after -> Forall (fun p => leaves p (c :: s)) before ->
    r c s = (Data w, s') -> cut rules s' ws -> cut rules (c :: s) (w :: ws)
| cut_dropped : forall before r after c s s' ws, rules = before ++ r :: after -> Forall (fun p => leaves p (c :: s)) before ->
    r c s = (Skip, s') -> cut rules s' ws -> cut rules (c :: s) ws
| cut_char : forall c s ws, Forall (fun p => leaves p (c :: s)) rules -> cut rules s ws -> cut rules (c :: s) ([c] :: ws).

(** [lexes_by numbers r s ws]: as [lexes] (SpecLex), with the words of the rule [r] first; with [numbers], after numbers; without, there
    are no numbers, and digits that [r] leaves are words of their own. *)
Section Rule.
Variable numbers : bool.
Variable r : rule.
Inductive lexes_by : str -> list str -> Prop :=
| by_end : lexes_by [] []
| by_rule : forall c s w s' ws, (numbers = true -> ~ digit c) -> r c s = (Data w, s') -> lexes_by s' ws -> lexes_by (c :: s) (w :: ws)
| by_rule_dropped : forall c s s' ws, (numbers = true -> ~ digit c) -> r c s = (Skip, s') -> lexes_by s' ws -> lexes_by (c :: s) ws
| by_space : forall c s ws, is_whitespace c = true -> leaves r (c :: s) -> lexes_by s ws -> lexes_by (c :: s) ws
| by_number : forall n s ws, numbers = true -> number_word n -> stops (fun c => digit c \/ c = point) s -> lexes_by s ws -> lexes_by (n ++ s) (n :: ws)
| by_second_point : forall n s ws, numbers = true -> number_word n -> In point n -> lexes_by s ws -> lexes_by (n ++ point :: s) (n :: ws)
| by_ident : forall n s ws, ident_word n -> stops (fun c => letter c \/ digit c) s -> leaves r (n ++ s) -> lexes_by s ws -> lexes_by (n ++ s) (n :: ws)
| by_operator : forall n s ws, operator_word n -> stops operator_char s -> leaves r (n ++ s) -> lexes_by s ws -> lexes_by (n ++ s) (n :: ws)
| by_other : forall c s ws, is_whitespace c = false -> (digit c -> numbers = false) -> ~ letter c -> ~ operator_char c -> leaves r (c :: s) -> lexes_by s ws ->
    lexes_by (c :: s) ([c] :: ws).
End Rule.

(** What is done with a set of operator characters: a character is added or removed. *)
Inductive set_call := AddOperator (c : char) | Except (c : char).
Definition about (a : set_call) : char := match a with AddOperator c | Except c => c end.
(** The last call about [c] decides; without one, [c] is in if it was at the start. *)
Fixpoint in_set (start : char -> Prop) (calls_last_first : list set_call) (c : char) : Prop :=
  match calls_last_first with
  | [] => start c
  | a :: calls => if (about a =? c)%N then match a with AddOperator _ => True | Except _ => False end else in_set start calls c
  end.

(** What is done with a builder of splitters. *)
Inductive build_call := CallRule (r : rule) | CallInsert (i : nat) (r : rule) | CallWhitespace (w : whitespace_option).
(** The rules in order of priority after calls: a rule goes last, an inserted rule after the [i] first ones, which must exist. *)
Inductive in_order : list build_call -> list rule -> Prop :=
| order_none : in_order [] []
| order_rule : forall calls rules r, in_order calls rules -> in_order (calls ++ [CallRule r]) (rules ++ [r])
| order_insert : forall calls first others i r, in_order calls (first ++ others) -> List.length first = i -> in_order (calls ++ [CallInsert i r]) (first ++ r :: others)
| order_white : forall calls rules w, in_order calls rules -> in_order (calls ++ [CallWhitespace w]) rules.
(** White space is dropped if the last call about it says so. *)
Definition drops_white (calls : list build_call) : Prop := exists before after, calls = before ++ CallWhitespace RemoveWhitespace :: after /\ forall w, ~ In (CallWhitespace w) after.
(** An insertion beyond the rules there are. *)
Definition beyond (calls : list build_call) : Prop := exists before i r after rules, calls = before ++ CallInsert i r :: after /\ in_order before rules /\ (List.length rules < i)%nat.
