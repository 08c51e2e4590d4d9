(** The Redis TTL rate limiter (/repo/ratelimiter/ttl_ratelimiter_redis.go) on a Redis that loses data.

    Eviction, a restart from an old snapshot or without one, and a failover to a replica that lags behind
    have one thing in common: afterwards each key is either gone or has a value it had earlier, with the
    expiry it had then.  The limiter itself is that of RedisTtlModel.v. *)
From Verif Require Import Common Bytes RedisTtlModel.
Local Open Scope string_scope.
Local Open Scope Z_scope.

(** A call reaches Redis, or Redis lapses at its time [t] (ms): afterwards key [k] is gone if [back k] is
    [None], and is as it was [n] events ago if it is [Some n]. *)
Inductive event : Type :=
  | Serve (c : call)
  | Lapse (t : Z) (back : string -> option nat).

(** The contents of Redis after each event so far, the latest first. *)
Definition history : Type := list rstore.
Definition current (h : history) : rstore := nth 0 h mempty.
Definition lapsed (back : string -> option nat) (h : history) : rstore :=
  fun k => match back k with
           | None => None
           | Some n => nth n h mempty k
           end.

(** What the calls among the events return, with the calls (ttl_ratelimiter_redis.go:162-245). *)
Fixpoint do_events (es : list event) (h : history) : history * list (call * outcome) :=
  match es with
  | [] => (h, [])
  | Serve c :: es' =>
    let (s, o) := do_call c (current h) in
    let (h', r) := do_events es' (s :: h) in
    (h', (c, o) :: r)
  | Lapse _ back :: es' => do_events es' (lapsed back h :: h)
  end.
