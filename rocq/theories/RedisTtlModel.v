(** Executable model of the Redis TTL rate limiter
    (/repo/ratelimiter/ttl_ratelimiter.go, /repo/ratelimiter/ttl_ratelimiter_redis.go).

    Redis: a store of keys holding a list or a string, each with an optional expiry in milliseconds.
    A script runs atomically and its clock stands still while it runs.  Numbers in Lua are modelled by
    integers: faithful while capacity, window, timeout and timestamps are below 2^53. *)
From Verif Require Import Common Bytes.
Local Open Scope string_scope.
Local Open Scope Z_scope.

(** ** Redis *)

Inductive rval : Type := RList (l : list Z) | RStr (s : string).
Record rentry : Type := Entry { e_val : rval; e_exp : option Z }.
Definition rstore : Type := smap rentry.

(** A key as a command at time [t] sees it: a key is gone once the clock has passed its expiry. *)
Definition live (t : Z) (s : rstore) (k : string) : option rentry :=
  match s k with
  | Some e => match e_exp e with
              | Some w => if w <? t then None else Some e
              | None => Some e
              end
  | None => None
  end.

(** A command or script: changes the store and yields a value, or an error ([None]).  Redis does not
    roll back what a failing script has done. *)
Definition R (A : Type) : Type := rstore -> rstore * option A.
Definition ret {A} (a : A) : R A := fun s => (s, Some a).
Definition bind {A B} (m : R A) (f : A -> R B) : R B :=
  fun s => match m s with
           | (s', Some a) => f a s'
           | (s', None) => (s', None)
           end.
Notation "'do' x <- m ; f" := (bind m (fun x => f)) (at level 200, x name, m at level 100, f at level 200).
Notation "'do_' m ; f" := (bind m (fun _ => f)) (at level 200, m at level 100, f at level 200).

Definition r_exists (t : Z) (k : string) : R bool :=
  fun s => (s, Some match live t s k with Some _ => true | None => false end).
(** TTL rounds the remaining milliseconds to seconds; -2: no such key, -1: no expiry. *)
Definition r_ttl (t : Z) (k : string) : R Z :=
  fun s => (s, Some match live t s k with
                    | None => -2
                    | Some e => match e_exp e with
                                | None => -1
                                | Some w => (Z.max 0 (w - t) + 500) / 1000
                                end
                    end).
(** GET: nil for a missing key, WRONGTYPE for a list. *)
Definition r_get (t : Z) (k : string) : R (option string) :=
  fun s => (s, match live t s k with
               | None => Some None
               | Some e => match e_val e with RStr v => Some (Some v) | RList _ => None end
               end).
Definition r_llen (t : Z) (k : string) : R Z :=
  fun s => (s, match live t s k with
               | None => Some 0
               | Some e => match e_val e with RList l => Some (Z.of_nat (length l)) | RStr _ => None end
               end).
Definition r_rpush (t : Z) (k : string) (v : Z) : R unit :=
  fun s => match live t s k with
           | None => (mset s k (Entry (RList [v]) None), Some tt)
           | Some e => match e_val e with
                       | RList l => (mset s k (Entry (RList (l ++ [v])) (e_exp e)), Some tt)
                       | RStr _ => (s, None)
                       end
           end.
(** LPOP; a list that becomes empty is deleted. *)
Definition r_lpop (t : Z) (k : string) : R unit :=
  fun s => match live t s k with
           | None => (s, Some tt)
           | Some e => match e_val e with
                       | RList [] => (s, Some tt)
                       | RList [_] => (mdel s k, Some tt)
                       | RList (_ :: l) => (mset s k (Entry (RList l) (e_exp e)), Some tt)
                       | RStr _ => (s, None)
                       end
           end.
(** LRANGE key 0 0. *)
Definition r_lfirst (t : Z) (k : string) : R (list Z) :=
  fun s => (s, match live t s k with
               | None => Some []
               | Some e => match e_val e with RList l => Some (firstn 1 l) | RStr _ => None end
               end).
Definition r_expire (t : Z) (k : string) (secs : Z) : R unit :=
  fun s => match live t s k with
           | None => (s, Some tt)
           | Some e => (mset s k (Entry (e_val e) (Some (t + secs * 1000))), Some tt)
           end.
(** SET key value EX secs NX. *)
Definition r_set_ex_nx (t : Z) (k : string) (v : string) (secs : Z) : R unit :=
  fun s => match live t s k with
           | Some _ => (s, Some tt)
           | None => (mset s k (Entry (RStr v) (Some (t + secs * 1000))), Some tt)
           end.

(** ** The scripts *)

(** What a script returns: block, triggered, ttl, msg (nil if GET found nothing). *)
Record reply : Type := Reply { y_block : Z; y_triggered : Z; y_ttl : Z; y_msg : option string }.
Definition pass_reply : reply := Reply 0 0 0 (Some "").

(** ttl_ratelimiter_redis.go:83-90, the loop of LPOPs. *)
Fixpoint lpops (t : Z) (k : string) (n : nat) : R unit :=
  match n with
  | O => ret tt
  | S n' => do_ r_lpop t k; lpops t k n'
  end.

(** ttl_ratelimiter_redis.go:53-111 script1. *)
Definition script1 (t : Z) (key keyb : string) (cap win exp now : Z) (msg : string) : R reply :=
  if (cap <=? 0) || (win <=? 0) || (exp <=? 0) then ret pass_reply
  else
    do ex <- r_exists t keyb;
    if (ex : bool) then
      do ttl <- r_ttl t keyb;
      do omsg <- r_get t keyb;
      ret (Reply 1 0 ttl omsg)
    else
      do size <- r_llen t key;
      if size <? cap then
        do_ r_rpush t key now;
        do_ r_expire t key (exp * 2);
        ret pass_reply
      else
        let diff := size - cap in
        do_ (if 0 <? diff then lpops t key (Z.to_nat diff) else ret tt);
        do list <- r_lfirst t key;
        match list with
        | [] =>
          do_ r_rpush t key now;
          do_ r_expire t key (exp * 2);
          ret pass_reply
        | oldest :: _ =>
          if win <? now - oldest then
            do_ r_rpush t key now;
            do_ r_lpop t key;
            do_ r_expire t key (exp * 2);
            ret pass_reply
          else
            do_ r_set_ex_nx t keyb msg exp;
            ret (Reply 1 1 exp (Some msg))
        end.

(** ttl_ratelimiter_redis.go:113-124 script2. *)
Definition script2 (t : Z) (keyb : string) : R reply :=
  do ex <- r_exists t keyb;
  if (ex : bool) then
    do ttl <- r_ttl t keyb;
    do omsg <- r_get t keyb;
    ret (Reply 1 0 ttl omsg)
  else ret pass_reply.

(** ** The Go side *)

(** [strings.Trim(s, "{}")] (Go standard library). *)
Definition is_brace (c : ascii) : bool := Ascii.eqb c "{" || Ascii.eqb c "}".
Fixpoint trim_left (s : string) : string :=
  match s with
  | String.String c s' => if is_brace c then trim_left s' else s
  | String.EmptyString => ""
  end.
Fixpoint trim_right (s : string) : string :=
  match s with
  | String.EmptyString => ""
  | String.String c s' =>
    match trim_right s' with
    | String.EmptyString => if is_brace c then "" else String.String c ""
    | r => String.String c r
    end
  end.
Definition trim_braces (s : string) : string := trim_right (trim_left s).

(** ttl_ratelimiter_redis.go:152-156: a limiter, as far as its calls depend on it. *)
Record limiter : Type := Limiter { l_hash_tag : string }.
(** ttl_ratelimiter_redis.go:132-138 NewRedisTtlRateLimiter. *)
Definition new_limiter : limiter := Limiter "".
(** ttl_ratelimiter_redis.go:140-150 NewRedisTtlRateLimiterCluster. *)
Definition new_cluster_limiter (hash_tag : string) : limiter := Limiter ("{" ++ trim_braces hash_tag ++ "}").

(** What the parameter getters return. *)
Record params : Type := Params { p_capacity : Z; p_window : Z; p_timeout : Z }.

(** ttl_ratelimiter.go:73-75 isParamsNotSet. *)
Definition params_not_set (p : params) : bool :=
  (p_capacity p <=? 0) || (p_timeout p <=? 0) || (p_window p <=? 0).

(** ttl_ratelimiter.go:29-34 Result. *)
Record result : Type := Result { res_block : bool; res_triggered : bool; res_ttl : Z; res_msg : string }.
Definition zero_result : result := Result false false 0 "".

(** A call returns, or panics at [arr[3].(string)]. *)
Inductive outcome : Type := Returned (r : result) | Panicked.

(** What the network does to the EVALSHA: it works, the request never runs (no connection, script not
    loaded, cancelled context), or it runs and the reply is lost. *)
Inductive net : Type := NetOk | NetLostRequest | NetLostReply.

(** ttl_ratelimiter_redis.go:172-183, 221-232: decoding the reply; [int64] to [int] is the identity. *)
Definition decode (y : option reply) : outcome :=
  match y with
  | None => Returned zero_result
  | Some y =>
    match y_msg y with
    | None => Panicked
    | Some msg => Returned (Result (y_block y =? 1) (y_triggered y =? 1) (y_ttl y) msg)
    end
  end.

(** EVALSHA over the network. *)
Definition evalsha (n : net) (script : R reply) (s : rstore) : rstore * outcome :=
  match n with
  | NetOk => let (s', y) := script s in (s', decode y)
  | NetLostRequest => (s, decode None)
  | NetLostReply => (fst (script s), decode None)
  end.

(** ttl_ratelimiter_redis.go:162-184 IsBlockedContext, 243-245 IsBlocked. *)
Definition is_blocked (l : limiter) (n : net) (t : Z) (block_key : string) (s : rstore) : rstore * outcome :=
  evalsha n (script2 t (block_key ++ ":bl")) s.

(** ttl_ratelimiter_redis.go:186-233 ShouldBlock2Context, 239-241 ShouldBlock2.  The parameters are read
    twice, [p0] for the check and [p] for the script; [ns] is the client's [time.Now().UnixNano()]. *)
Definition should_block2 (l : limiter) (n : net) (t ns : Z) (p0 p : params) (key block_key msg : string)
    (s : rstore) : rstore * outcome :=
  if params_not_set p0 then (s, Returned zero_result)
  else
    let key := "_rl:" ++ key in
    let block_key := block_key ++ ":bl" in
    let key := if negb (l_hash_tag l =? "")%string then key ++ l_hash_tag l else key in
    let block_key := if negb (l_hash_tag l =? "")%string then block_key ++ l_hash_tag l else block_key in
    let now := Z.quot ns second in
    evalsha n (script1 t key block_key (p_capacity p) (p_window p) (p_timeout p) now msg) s.

(** ttl_ratelimiter_redis.go:158-160, 235-237 ShouldBlock. *)
Definition should_block (l : limiter) (n : net) (t ns : Z) (p0 p : params) (key msg : string)
    (s : rstore) : rstore * outcome :=
  should_block2 l n t ns p0 p key key msg s.

(** ** Histories *)

Inductive op : Type :=
  | OpShouldBlock (p0 p : params) (key block_key msg : string)
  | OpIsBlocked (block_key : string).

(** One call: by which limiter, at which Redis time (ms) and client time (ns), and its network luck. *)
Record call : Type := Call { c_lim : limiter; c_op : op; c_t : Z; c_ns : Z; c_net : net }.

Definition do_call (c : call) (s : rstore) : rstore * outcome :=
  match c_op c with
  | OpShouldBlock p0 p key bkey msg => should_block2 (c_lim c) (c_net c) (c_t c) (c_ns c) p0 p key bkey msg s
  | OpIsBlocked bkey => is_blocked (c_lim c) (c_net c) (c_t c) bkey s
  end.

Fixpoint do_calls (cs : list call) (s : rstore) : rstore * list outcome :=
  match cs with
  | [] => (s, [])
  | c :: cs' =>
    let (s1, o) := do_call c s in
    let (s2, os) := do_calls cs' s1 in
    (s2, o :: os)
  end.
