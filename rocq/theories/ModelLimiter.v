(** * /repo/prexel-server/src/main.rs: the rate limiter and the cookie middleware

    The crate actix-ratelimit is not in the repository; what is modelled of it is what its documentation says of [RateLimiter] with
    a [MemoryStore]: a client seen for the first time, or again after the interval, has [max_requests] requests for the next
    interval; each request takes one, and at zero the answer is 429. Looking up and decrementing are one step here. *)
From Coq Require Import List NArith Bool.
From Verif Require Import ModelBase ModelText ModelServer.
Import ListNotations.
Local Open Scope N_scope.

(** main.rs 89-90; milliseconds *)
Definition MAX_REQUESTS : nat := 100%nat.
Definition TIME_BETWEEN_REQUESTS : N := 60000.

(** [MemoryStore]: for an identifier the requests left and the time at which the entry expires. *)
Definition store := list (str * (nat * N)).
Fixpoint entry (s : store) (id : str) : option (nat * N) :=
  match s with
  | [] => None
  | (k, v) :: s' => if str_eqb id k then Some v else entry s' id
  end.
(** [RateLimiter], main.rs 94-102 *)
Definition admit (s : store) (id : str) (now : N) : bool * store :=
  match entry s id with
  | Some (n, expires) =>
      if now <? expires then
        match n with
        | O => (false, s)
        | S n' => (true, (id, (n', expires)) :: s)
        end
      else (true, (id, (pred MAX_REQUESTS, now + TIME_BETWEEN_REQUESTS)) :: s)
  | None => (true, (id, (pred MAX_REQUESTS, now + TIME_BETWEEN_REQUESTS)) :: s)
  end.

(** A request: the worker thread it is given to, when, by whom, and the UUID that is drawn if one is needed. *)
Record arrival := Arrival { a_worker : nat; a_time : N; a_from : sender; a_uuid : list N }.
(** Handed on to the endpoints, with the cookie set on the response if any; status 429; or the limiter's [IdentificationError]. *)
Inductive answer := Served (cookie : option str) | TooMany | Unidentified.

(** main.rs 33-86: [HttpServer::new] runs the closure once in every worker, so every worker has its own store (line 93). The
    cookie middleware (37-72) is the outermost. If the limiter fails, [fut.await?] (line 58) ends it before the cookie is set.
    [reads_back]: whether actix, asked for the cookies again, reads the header the middleware has inserted (lines 50-53) or
    gives those it read at line 38. The inserted cookie has no [HttpOnly] of its own when read from a request. *)
Section Front.
Variable reads_back : bool.
Definition with_cookie (r : sender) (id : str) : sender := Sender (remote_addr r) (peer_addr r) (Some (utf8 id, None)).
Definition limited (cookie : option str) (stores : nat -> store) (a : arrival) (id : str) : answer * (nat -> store) :=
  let (ok, s) := admit (stores (a_worker a)) id (a_time a) in
  (if ok then Served cookie else TooMany, fun k => if Nat.eqb k (a_worker a) then s else stores k).
Definition handle (stores : nat -> store) (a : arrival) : answer * (nat -> store) :=
  match get_rate_limit_identifier (a_from a) with
  | Some id => limited None stores a id
  | None =>
      let new_id := generate_rate_limit_id (a_uuid a) in
      match (if reads_back then get_rate_limit_identifier (with_cookie (a_from a) new_id) else None) with
      | Some id => limited (Some new_id) stores a id
      | None => (Unidentified, stores)
      end
  end.
Fixpoint serve (stores : nat -> store) (arrivals : list arrival) : list answer :=
  match arrivals with
  | [] => []
  | a :: rest => let (x, stores') := handle stores a in x :: serve stores' rest
  end.
(** The server as it is started. *)
Definition server : list arrival -> list answer := serve (fun _ => []).
End Front.
