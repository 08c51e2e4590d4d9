(** Specification of the Redis TTL rate limiter. *)
From Verif Require Import Common Bytes RedisTtlModel.
Local Open Scope string_scope.
Local Open Scope Z_scope.

(** Where the requests of a call are counted, if it counts. *)
Definition counted_under (c : call) : option string :=
  match c_op c with
  | OpShouldBlock _ _ k _ _ => Some ("_rl:" ++ k ++ l_hash_tag (c_lim c))
  | OpIsBlocked _ => None
  end.
(** Where a call looks for a block (and, if it is a ShouldBlock2, records one). *)
Definition blocked_under (c : call) : string :=
  match c_op c with
  | OpShouldBlock _ _ _ b _ => b ++ ":bl" ++ l_hash_tag (c_lim c)
  | OpIsBlocked b => b ++ ":bl"
  end.

(** The parameters a call uses, if all are positive on both reads. *)
Definition params_set (p : params) : Prop := 0 < p_capacity p /\ 0 < p_window p /\ 0 < p_timeout p.
Definition effective (c : call) : Prop :=
  c_net c = NetOk /\
  match c_op c with
  | OpShouldBlock p0 p _ _ _ => params_set p0 /\ params_set p
  | OpIsBlocked _ => True
  end.
Definition timeout_ms (c : call) : Z :=
  match c_op c with OpShouldBlock _ p _ _ _ => p_timeout p * 1000 | OpIsBlocked _ => 0 end.

(** The three result shapes. *)
Definition passed (o : outcome) : Prop := o = Returned (Result false false 0 "").
Definition triggered (o : outcome) (m : string) (ttl : Z) : Prop := o = Returned (Result true true ttl m).
Definition still_blocked (o : outcome) (m : string) (ttl : Z) : Prop := o = Returned (Result true false ttl m).

(** Seconds left until [until], rounded to the nearest second, halves up. *)
Definition rounded_left (t until : Z) : Z := (until - t + 500) / 1000.

(** The block in force under [rk] at time [t] after a history: message and end of the last reported
    trigger, if it has not run out. *)
Fixpoint block_in_force (rk : string) (t : Z) (h : list (call * outcome)) : option (string * Z) :=
  match h with
  | [] => None
  | (c, o) :: h' =>
    match block_in_force rk t h' with
    | Some b => Some b
    | None =>
      match o with
      | Returned (Result true true _ m) =>
        if (blocked_under c =? rk)%string then
          if t <=? c_t c + timeout_ms c then Some (m, c_t c + timeout_ms c) else None
        else None
      | _ => None
      end
    end
  end.

(** Number of calls counted under [rk] that Redis let pass at client times in [x, y] (ns). *)
Definition passes_in (rk : string) (x y : Z) (h : list (call * outcome)) : Z :=
  count (fun co : call * outcome =>
    let (c, o) := co in
    match counted_under c, c_net c, o with
    | Some k, NetOk, Returned (Result false _ _ _) => (k =? rk)%string && (x <=? c_ns c) && (c_ns c <=? y)
    | _, _, _ => false
    end) h.

(** The client clock reads within [skew] nanoseconds of the Redis clock. *)
Definition in_sync (skew : Z) (c : call) : Prop :=
  0 <= c_ns c /\ c_t c * 1000000 <= c_ns c + skew /\ c_ns c - skew < (c_t c + 1) * 1000000.

(** Redis Cluster: the part of a key that is hashed.  After the first '{', up to the next '}', if that
    is not empty; otherwise all of it. *)
Fixpoint after_open (s : string) : option string :=
  match s with
  | String.EmptyString => None
  | String.String c s' => if Ascii.eqb c "{" then Some s' else after_open s'
  end.
Fixpoint upto_close (s : string) : option string :=
  match s with
  | String.EmptyString => None
  | String.String c s' =>
    if Ascii.eqb c "}" then Some ""
    else match upto_close s' with Some r => Some (String.String c r) | None => None end
  end.
Definition hashed_part (key : string) : string :=
  match after_open key with
  | None => key
  | Some r => match upto_close r with
              | None => key
              | Some tag => if (tag =? "")%string then key else tag
              end
  end.

Fixpoint free_of (c : ascii) (s : string) : Prop :=
  match s with
  | String.EmptyString => True
  | String.String x s' => x <> c /\ free_of c s'
  end.

(** Two calls that have no Redis key in common. *)
Definition unrelated (c1 c2 : call) : Prop :=
  blocked_under c1 <> blocked_under c2 /\
  (forall k, counted_under c1 = Some k -> k <> blocked_under c2 /\ counted_under c2 <> Some k) /\
  (forall k, counted_under c2 = Some k -> k <> blocked_under c1).

(** No Redis key is used both for counting requests and for recording blocks. *)
Definition separate (cs : list call) : Prop :=
  forall c1 c2, In c1 cs -> In c2 cs -> counted_under c2 <> None -> counted_under c1 <> Some (blocked_under c2).

(** A call made through a limiter from NewRedisTtlRateLimiterCluster. *)
Definition cluster_call (c : call) : Prop := exists tag, c_lim c = new_cluster_limiter tag.
