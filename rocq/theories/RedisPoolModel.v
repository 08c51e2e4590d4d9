(** Executable model of the connection pool behind the *redis.Client that NewRedisClient returns
    (/repo/confs/redis.go:48-61 and 68-80: PoolSize and MinIdleConns are the configured Pool and MinIdle).  The pool is that
    of github.com/go-redis/redis/v7 (internal/pool/pool.go), written down from memory of its source, which is not in the repo.
    Every event is one critical section under connsMu or one operation on the queue of turns; connecting happens outside.
    Simplifications: connections are counted, not told apart; when a connection is stale is not computed, any idle
    connection may be at any time; Close is left out, and so are the connections that Conn() takes out of the pool. *)
From Verif Require Import Common ConfsModel.
Local Open Scope Z_scope.

(** Options.init: no size means ten per processor; [None]: a negative size makes the queue of turns panic. *)
Definition pool_size_of (cpus : Z) (o : redis_native) : option Z :=
  if rn_pool o =? 0 then Some (10 * cpus) else if rn_pool o <? 0 then None else Some (rn_pool o).

(** Options PoolSize and MinIdleConns, and whether the version of the driver takes the counters back when addIdleConn fails
    (older ones do not). *)
Record rlimits := mkRl { rl_size : Z; rl_min : Z; rl_undo : bool }.

(** [rp_turns]: length of the queue; [rp_waiting]: callers that wait for a turn; [rp_asking]: callers that have a turn and
    look for an idle connection; [rp_discarding]: callers that throw a stale one away; [rp_dialing]: callers that connect;
    [rp_used], [rp_extra]: connections in the hands of callers, pooled and not; [rp_leaving]: about to give the turn back;
    [rp_reaping]: the reaper with a turn; [rp_free]: idleConns; [rp_adding]: goroutines of checkMinIdleConns;
    [rp_len], [rp_size]: the fields idleConnsLen and poolSize; [rp_lost]: failures that stay in these two (not a field). *)
Record rpool := mkRp {
  rp_turns : Z; rp_waiting : Z; rp_asking : Z; rp_discarding : Z; rp_dialing : Z; rp_used : Z; rp_extra : Z; rp_leaving : Z;
  rp_reaping : Z; rp_free : Z; rp_adding : Z; rp_len : Z; rp_size : Z; rp_lost : Z }.

(** checkMinIdleConns *)
Definition check_min (l : rlimits) (s : rpool) : rpool :=
  let 'mkRp turns waiting asking discarding dialing used extra leaving reaping free adding len size lost := s in
  if rl_min l =? 0 then s
  else
    let n := Z.max 0 (Z.min (rl_size l - size) (rl_min l - len)) in
    mkRp turns waiting asking discarding dialing used extra leaving reaping free (adding + n) (len + n) (size + n) lost.

(** NewConnPool *)
Definition new_pool (l : rlimits) : rpool := check_min l (mkRp 0 0 0 0 0 0 0 0 0 0 0 0 0 0).

Inductive redis_event :=
| RArrive                 (* Get: a caller wants a connection *)
| RTurn | RTimeout        (* waitTurn: it gets its turn; PoolTimeout or its context ends *)
| RPop | RPopStale        (* popIdle: it takes an idle connection, if there is one; this one is stale *)
| RDiscard                (* CloseConn of the stale one *)
| RDialed | RDialFailed   (* newConn *)
| RPut | RPutExtra        (* Put of a pooled connection and of another one (or Remove of that) *)
| RRemove                 (* Remove of a pooled connection *)
| RLeave                  (* freeTurn *)
| RAdded | RAddFailed     (* addIdleConn *)
| RReap | RReaped | RNothing. (* ReapStaleConns: gets a turn; removes a stale connection; finds none *)

Definition redis_step (l : rlimits) (e : redis_event) (s : rpool) : option rpool :=
  let 'mkRp turns waiting asking discarding dialing used extra leaving reaping free adding len size lost := s in
  match e with
  | RArrive => Some (mkRp turns (waiting + 1) asking discarding dialing used extra leaving reaping free adding len size lost)
  | RTurn =>
    if (0 <? waiting) && (turns <? rl_size l)
    then Some (mkRp (turns + 1) (waiting - 1) (asking + 1) discarding dialing used extra leaving reaping free adding len size lost) else None
  | RTimeout =>
    if 0 <? waiting then Some (mkRp turns (waiting - 1) asking discarding dialing used extra leaving reaping free adding len size lost) else None
  | RPop =>
    if 0 <? asking then
      if 0 <? free
      then Some (check_min l (mkRp turns waiting (asking - 1) discarding dialing (used + 1) extra leaving reaping (free - 1) adding (len - 1) size lost))
      else Some (mkRp turns waiting (asking - 1) discarding (dialing + 1) used extra leaving reaping free adding len size lost)
    else None
  | RPopStale =>
    if (0 <? asking) && (0 <? free)
    then Some (check_min l (mkRp turns waiting (asking - 1) (discarding + 1) dialing used extra leaving reaping (free - 1) adding (len - 1) size lost)) else None
  | RDiscard =>
    if 0 <? discarding
    then Some (check_min l (mkRp turns waiting (asking + 1) (discarding - 1) dialing used extra leaving reaping free adding len (size - 1) lost)) else None
  | RDialed =>
    if 0 <? dialing then
      if rl_size l <=? size
      then Some (mkRp turns waiting asking discarding (dialing - 1) used (extra + 1) leaving reaping free adding len size lost)
      else Some (mkRp turns waiting asking discarding (dialing - 1) (used + 1) extra leaving reaping free adding len (size + 1) lost)
    else None
  | RDialFailed =>
    if 0 <? dialing then Some (mkRp turns waiting asking discarding (dialing - 1) used extra (leaving + 1) reaping free adding len size lost) else None
  | RPut =>
    if 0 <? used then Some (mkRp turns waiting asking discarding dialing (used - 1) extra (leaving + 1) reaping (free + 1) adding (len + 1) size lost) else None
  | RPutExtra =>
    if 0 <? extra then Some (mkRp turns waiting asking discarding dialing used (extra - 1) (leaving + 1) reaping free adding len size lost) else None
  | RRemove =>
    if 0 <? used
    then Some (check_min l (mkRp turns waiting asking discarding dialing (used - 1) extra (leaving + 1) reaping free adding len (size - 1) lost)) else None
  | RLeave =>
    if 0 <? leaving then Some (mkRp (turns - 1) waiting asking discarding dialing used extra (leaving - 1) reaping free adding len size lost) else None
  | RAdded =>
    if 0 <? adding then Some (mkRp turns waiting asking discarding dialing used extra leaving reaping (free + 1) (adding - 1) len size lost) else None
  | RAddFailed =>
    if 0 <? adding then
      if rl_undo l
      then Some (mkRp turns waiting asking discarding dialing used extra leaving reaping free (adding - 1) (len - 1) (size - 1) lost)
      else Some (mkRp turns waiting asking discarding dialing used extra leaving reaping free (adding - 1) len size (lost + 1))
    else None
  | RReap =>
    if turns <? rl_size l then Some (mkRp (turns + 1) waiting asking discarding dialing used extra leaving (reaping + 1) free adding len size lost) else None
  | RReaped =>
    if (0 <? reaping) && (0 <? free)
    then Some (check_min l (mkRp turns waiting asking discarding dialing used extra (leaving + 1) (reaping - 1) (free - 1) adding (len - 1) (size - 1) lost)) else None
  | RNothing =>
    if 0 <? reaping then Some (mkRp turns waiting asking discarding dialing used extra (leaving + 1) (reaping - 1) free adding len size lost) else None
  end.
Fixpoint redis_run (l : rlimits) (es : list redis_event) (s : rpool) : option rpool :=
  match es with
  | [] => Some s
  | e :: es' => match redis_step l e s with Some s' => redis_run l es' s' | None => None end
  end.
