(** * Specification: who is served how often *)
From Coq Require Import List NArith Bool Arith.
From Verif Require Import ModelBase ModelServer ModelLimiter.
Import ListNotations.

(** The identifier a request is counted under: that of its sender; for a sender known by nothing that of the cookie made for it,
    if the server reads it back. *)
Definition client (reads_back : bool) (a : arrival) : option str :=
  match get_rate_limit_identifier (a_from a) with
  | Some id => Some id
  | None => if reads_back then get_rate_limit_identifier (with_cookie (a_from a) (generate_rate_limit_id (a_uuid a))) else None
  end.
(** Requests come in the order of their times. *)
Fixpoint in_order (l : list arrival) : Prop := match l with a :: (b :: _) as l' => (a_time a <= a_time b)%N /\ in_order l' | _ => True end.
(** How many of the requests for which [which] holds were served. *)
Fixpoint served (which : arrival -> bool) (arrivals : list arrival) (answers : list answer) : nat :=
  match arrivals, answers with
  | a :: arrivals', x :: answers' => ((if which a then match x with Served _ => 1 | _ => 0 end else 0) + served which arrivals' answers')%nat
  | _, _ => 0%nat
  end.
(** Requests of the client [id], given to [worker], at times from [from] on and before [to]. *)
Definition of_client (reads_back : bool) (id : str) (a : arrival) : bool := match client reads_back a with Some i => str_eqb i id | None => false end.
Definition at_worker (k : nat) (a : arrival) : bool := Nat.eqb (a_worker a) k.
Definition during (from to : N) (a : arrival) : bool := (from <=? a_time a)%N && (a_time a <? to)%N.
Definition both (p q : arrival -> bool) (a : arrival) : bool := p a && q a.
