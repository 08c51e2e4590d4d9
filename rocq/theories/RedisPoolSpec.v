(** Specification of the connection pool of Redis clients. *)
From Verif Require Import Common ConfsModel RedisPoolModel.
Local Open Scope Z_scope.

(** Connections that callers have. *)
Definition in_use (s : rpool) : Z := rp_used s + rp_extra s.
(** Connections that exist or are being made; those that have been given up and are being closed do not count. *)
Definition redis_conns (s : rpool) : Z := rp_free s + rp_adding s + in_use s + rp_dialing s + rp_discarding s.
(** Callers and reapers that have a turn. *)
Definition busy (s : rpool) : Z := rp_asking s + rp_discarding s + rp_dialing s + in_use s + rp_leaving s + rp_reaping s.
