(** The scripts of the Redis TTL rate limiter (/repo/ratelimiter/ttl_ratelimiter_redis.go): LoadScript stores them
    in the script cache of one Redis server and keeps their digests in two variables of the process; calls name a
    script by its digest.  Several processes and several Redis servers.

    A digest is modelled by the script it belongs to: the two scripts are fixed texts with different SHA-1 digests.
    Data that Redis loses as in RedisLapseModel.v.  LoadScript is not called while a call is being made. *)
From Verif Require Import Common Bytes RedisTtlModel RedisLapseModel.
Local Open Scope string_scope.
Local Open Scope Z_scope.

Inductive script : Type := Script1 | Script2.
Definition script_eqb (a b : script) : bool := match a, b with Script1, Script1 | Script2, Script2 => true | _, _ => false end.

(** ttl_ratelimiter_redis.go:127-130, for each process ([None]: the empty string); each server's script cache and
    data. *)
Record sys : Type := Sys { y_sha1 : nat -> option script; y_sha2 : nat -> option script; y_cache : nat -> list script; y_hist : nat -> history }.
Definition start : sys := Sys (fun _ => None) (fun _ => None) (fun _ => []) (fun _ => []).

Definition fset {A} (i : nat) (x : A) (f : nat -> A) : nat -> A := fun j => if (j =? i)%nat then x else f j.
Definition put_sha1 (p : nat) (v : option script) (y : sys) : sys := Sys (fset p v (y_sha1 y)) (y_sha2 y) (y_cache y) (y_hist y).
Definition put_sha2 (p : nat) (v : option script) (y : sys) : sys := Sys (y_sha1 y) (fset p v (y_sha2 y)) (y_cache y) (y_hist y).
Definition put_cache (s : nat) (c : list script) (y : sys) : sys := Sys (y_sha1 y) (y_sha2 y) (fset s c (y_cache y)) (y_hist y).
Definition put_hist (s : nat) (h : history) (y : sys) : sys := Sys (y_sha1 y) (y_sha2 y) (y_cache y) (fset s h (y_hist y)).

(** ttl_ratelimiter_redis.go:268-274 loadScript with the network [n]: SCRIPT LOAD, the callback with the digest.
    [false]: a panic, the callback is not called. *)
Definition load_script (s : nat) (sc : script) (n : net) (callback : option script -> sys -> sys) (y : sys) : sys * bool :=
  match n with
  | NetOk => (callback (Some sc) (put_cache s (sc :: y_cache y s) y), true)
  | NetLostRequest => (y, false)
  | NetLostReply => (put_cache s (sc :: y_cache y s) y, false)
  end.

(** ttl_ratelimiter_redis.go:259-266 LoadScript by process [p] with a client of server [s]. *)
Definition load_scripts (p s : nat) (n1 n2 : net) (y : sys) : sys * bool :=
  match load_script s Script1 n1 (put_sha1 p) y with
  | (y1, true) => load_script s Script2 n2 (put_sha2 p) y1
  | (y1, false) => (y1, false)
  end.

(** EVALSHA of a digest: an error if the server does not know the script. *)
Definition named (v : option script) (cache : list script) : option script :=
  match v with
  | Some sc => if existsb (script_eqb sc) cache then Some sc else None
  | None => None
  end.

(** ttl_ratelimiter_redis.go:162-184 IsBlockedContext with the script that scriptSha2 names; script1 with a single
    key fails at its first command. *)
Definition is_blocked_with (v : option script) (l : limiter) (n : net) (t : Z) (block_key : string) (d : rstore) : rstore * outcome :=
  match v with
  | Some Script2 => evalsha n (script2 t (block_key ++ ":bl")) d
  | _ => (d, decode None)
  end.

(** ttl_ratelimiter_redis.go:186-233 ShouldBlock2Context with the script that scriptSha1 names. *)
Definition should_block2_with (v : option script) (l : limiter) (n : net) (t ns : Z) (p0 p : params) (key block_key msg : string)
    (d : rstore) : rstore * outcome :=
  if params_not_set p0 then (d, Returned zero_result)
  else
    let key := "_rl:" ++ key in
    let block_key := block_key ++ ":bl" in
    let key := if negb (l_hash_tag l =? "")%string then key ++ l_hash_tag l else key in
    let block_key := if negb (l_hash_tag l =? "")%string then block_key ++ l_hash_tag l else block_key in
    let now := Z.quot ns second in
    match v with
    | Some Script1 => evalsha n (script1 t key block_key (p_capacity p) (p_window p) (p_timeout p) now msg) d
    | Some Script2 => evalsha n (script2 t key) d
    | None => (d, decode None)
    end.

(** A call by process [p] at server [s]. *)
Definition call_with (p s : nat) (c : call) (y : sys) (d : rstore) : rstore * outcome :=
  match c_op c with
  | OpShouldBlock p0 p' key bkey msg =>
    should_block2_with (named (y_sha1 y p) (y_cache y s)) (c_lim c) (c_net c) (c_t c) (c_ns c) p0 p' key bkey msg d
  | OpIsBlocked bkey => is_blocked_with (named (y_sha2 y p) (y_cache y s)) (c_lim c) (c_net c) (c_t c) bkey d
  end.

(** What happens: LoadScript; a call; a server loses data (see RedisLapseModel.v); a server loses its scripts, and
    data (SCRIPT FLUSH, a restart, a failover to a replica without the scripts). *)
Inductive sevent : Type :=
  | SLoad (p s : nat) (n1 n2 : net)
  | SCall (p s : nat) (c : call)
  | SLapse (s : nat) (t : Z) (back : string -> option nat)
  | SRestart (s : nat) (t : Z) (back : string -> option nat).

Inductive sresult : Type :=
  | RLoaded (ok : bool)
  | ROutcome (o : outcome)
  | RNone.

Definition do_sevent (e : sevent) (y : sys) : sys * sresult :=
  match e with
  | SLoad p s n1 n2 => let (y', ok) := load_scripts p s n1 n2 y in (y', RLoaded ok)
  | SCall p s c => let (d, o) := call_with p s c y (current (y_hist y s)) in (put_hist s (d :: y_hist y s) y, ROutcome o)
  | SLapse s _ back => (put_hist s (lapsed back (y_hist y s) :: y_hist y s) y, RNone)
  | SRestart s _ back => (put_cache s [] (put_hist s (lapsed back (y_hist y s) :: y_hist y s) y), RNone)
  end.

Fixpoint do_sevents (es : list sevent) (y : sys) : sys * list sresult :=
  match es with
  | [] => (y, [])
  | e :: es' =>
    let (y1, r) := do_sevent e y in
    let (y2, rs) := do_sevents es' y1 in
    (y2, r :: rs)
  end.
