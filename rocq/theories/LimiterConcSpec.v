(** Specification of the limiters and the circuit breaker used by several goroutines. *)
From Verif Require Import Common Threads TokenBucketModel FixedWindowModel SlidingWindowModel BreakerModel MonitorModel MonitorSpec LimiterConcModel.

(** ** One call after the other
    What a call does that is alone: [s] and [s'] are the object before and after, [zs] its clock readings. *)
Definition bucket_call (s : sbucket) (m : tbmethod) (zs : list Z) (r : lresult) (s' : sbucket) : Prop :=
  match m with
  | BAcquire => exists now b, sync_acquire s now = (s', b) /\ r = LBool b /\ (zs = [now] \/ zs = [] /\ sb_capacity s <= sb_tokens s)
  | BCapacity => s' = s /\ zs = [] /\ r = LInt (sb_capacity s)
  end.
Definition fixed_call (s : fw) (m : fwmethod) (zs : list Z) (r : lresult) (s' : fw) : Prop :=
  match m with
  | FAcquire => exists now b, fw_acquire s now = (s', b) /\ r = LBool b /\ zs = [now]
  | FCapacity => s' = s /\ zs = [] /\ r = LInt (fw_capacity s)
  | FWindowSize => s' = s /\ zs = [] /\ r = LInt (fw_window s)
  end.
(** In particular no call of the sliding window panics. *)
Definition sliding_call (s : sw) (m : swmethod) (zs : list Z) (r : lresult) (s' : sw) : Prop :=
  match m with
  | WAcquire => exists now b, sw_acquire s now = Some (s', b) /\ r = LBool b /\ zs = [now]
  | WCapacity => s' = s /\ zs = [] /\ r = LInt (sw_get_capacity s)
  | WWindowSize => s' = s /\ zs = [] /\ r = LInt (sw_get_window s)
  | WUpdateConfig c w => s' = sw_update s c w /\ zs = [] /\ r = LUnit
  end.
(** The circuit breaker: threshold, timeout, and the failures in a row with the time of the last one. *)
Record circuit := Circuit { ci_threshold : Z; ci_timeout : Z; ci_failures : Z; ci_last : Z }.
Definition circuit_call (s : circuit) (m : cbmethod) (zs : list Z) (r : lresult) (s' : circuit) : Prop :=
  match m with
  | CState => exists now, zs = [now] /\ s' = s /\
      r = LState (if ci_failures s <? ci_threshold s then CbClosed
                  else if ci_timeout s <? i64 (now - ci_last s) then CbHalfOpen else CbOpen)
  | CRecordFailure => exists now, zs = [now] /\ r = LUnit /\ s' = Circuit (ci_threshold s) (ci_timeout s) (i64 (ci_failures s + 1)) now
  | CReset => zs = [] /\ r = LUnit /\ s' = Circuit (ci_threshold s) (ci_timeout s) 0 0
  end.

(** Several goroutines: every call takes effect at one instant while it runs, and the calls in the order of these
    instants are calls [one] after the other from [s0]. *)
Definition as_if_alone {R M S : Type} (one : S -> M -> list Z -> R -> S -> Prop) (s0 : S) (t0 : Z) (evs : list (mevent R M)) : Prop :=
  exists tr s', seen tr = evs /\ each_once tr /\ reads_clock t0 tr /\ one_by_one one s0 (effects tr) s'.

(** ** Grants *)
(** Calls that start and return in a stretch of a history and return true. *)
Definition grants {M} (evs : list (mevent lresult M)) : Z :=
  count (fun c => match snd c with LBool true => true | _ => false end) (finished evs).
(** What the clock shows after a schedule. *)
Definition clock_at {M} (t0 : Z) (sched : list (mlabel M)) : Z := last (ticks sched) t0.
Definition no_update (sched : list (mlabel swmethod)) : Prop := forall t c w, ~ In (MCall t (WUpdateConfig c w)) sched.
(** Capacity and window size of the sliding window at a moment. *)
Definition settings (w : mon swfield swvalue lresult swmethod) (c win : Z) : Prop := mo_mem w WCap = VInt c /\ mo_mem w WWin = VInt win.
