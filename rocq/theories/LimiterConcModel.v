(** The methods of the mutex based limiters and of the circuit breaker, one step per access to a field, lock
    operation or clock reading (see MonitorModel.v).  The sequential models (TokenBucketModel.v, FixedWindowModel.v,
    SlidingWindowModel.v, BreakerModel.v) take a whole critical section as one step.  [defer Unlock()] runs after the
    result is computed and before the method returns. *)
From Verif Require Import Common Threads Float64Model TokenBucketModel FixedWindowModel SlidingWindowModel BreakerModel MonitorModel.

(** What a method returns; [LPanic]: it panics (nil pointer dereference). *)
Inductive lresult := LBool (b : bool) | LInt (z : Z) | LState (s : cbstate) | LUnit | LPanic.

(** ** SyncTokenBucket *)
(** tokenbucket.go:58-65, the fields but [lock] and [nowFn]. *)
Inductive tbfield := TCapacity | TTokens | TRate | TLast.
Definition tbfield_eq : forall f g : tbfield, {f = g} + {f <> g}. Proof. decide equality. Defined.
Inductive tbmethod := BAcquire | BCapacity.
Definition tb_mem (b : sbucket) : mem tbfield Z :=
  fun f => match f with TCapacity => sb_capacity b | TTokens => sb_tokens b | TRate => sb_rate b | TLast => sb_last b end.

(** tokenbucket.go:85-104, [issueIfNecessary], and then [k]. *)
Definition tb_issue (k : code tbfield Z lresult) : code tbfield Z lresult :=
  CGet TTokens (fun tokens => CGet TCapacity (fun capacity =>
  if capacity <=? tokens then k                                                            (* 86-88 *)
  else CClock (fun now =>                                                                  (* 89 *)
  CGet TLast (fun last => CGet TRate (fun rate =>
  let delta := i64 (Z.quot (i64 (now - last)) second * rate) in                            (* 91-92 *)
  if delta =? 0 then k                                                                     (* 94-96 *)
  else CGet TTokens (fun tokens => CSet TTokens (i64 (tokens + delta))                     (* 98 *)
  (CGet TTokens (fun tokens => CGet TCapacity (fun capacity =>
  let k := CSet TLast now k in                                                             (* 103 *)
  if capacity <? tokens then CGet TCapacity (fun capacity => CSet TTokens capacity k)      (* 99-101 *)
  else k))))))))).

Definition tb_body (m : tbmethod) : code tbfield Z lresult :=
  match m with
  | BAcquire =>                                                                            (* 71-83 *)
    CLock (tb_issue (
    CGet TTokens (fun tokens => if 0 <? tokens                                             (* 77 *)
      then CGet TTokens (fun tokens => CSet TTokens (i64 (tokens - 1)) (CUnlock (CRet (LBool true))))  (* 78-79 *)
      else CUnlock (CRet (LBool false)))))                                                 (* 81 *)
  | BCapacity => CGet TCapacity (fun capacity => CRet (LInt capacity))                     (* 67-69 *)
  end.

(** ** SyncFixedWindow *)
(** fixedwindow.go:57-64, the fields but [lock] and [nowFn]. *)
Inductive fwfield := FCap | FWin | FUntil | FCount.
Definition fwfield_eq : forall f g : fwfield, {f = g} + {f <> g}. Proof. decide equality. Defined.
Inductive fwmethod := FAcquire | FCapacity | FWindowSize.
Definition fw_mem (s : fw) : mem fwfield Z :=
  fun f => match f with FCap => fw_capacity s | FWin => fw_window s | FUntil => fw_until s | FCount => fw_count s end.

(** fixedwindow.go:98-104, [reset], and then [k]. *)
Definition fw_reset_code (ts : Z) (k : code fwfield Z lresult) : code fwfield Z lresult :=
  CGet FUntil (fun until => if ts <=? until then k                                         (* 99-101 *)
  else CGet FUntil (fun until => CGet FUntil (fun until' => CGet FWin (fun window => CGet FWin (fun window' =>
  CSet FUntil (i64 (until + i64 (f64_ceil_int64 (f64_div (f64_of_int (i64 (ts - until'))) (f64_of_int window)) * window')))  (* 102 *)
  (CSet FCount 0 k)))))).                                                                  (* 103 *)

Definition fw_body (m : fwmethod) : code fwfield Z lresult :=
  match m with
  | FAcquire =>                                                                            (* 66-82 *)
    CClock (fun now => CLock (                                                             (* 67-70 *)
    let k := CGet FCount (fun count => CGet FCap (fun capacity =>
      if count <? capacity then CGet FCount (fun count => CSet FCount (i64 (count + 1)) (CUnlock (CRet (LBool true))))  (* 76-79 *)
      else CUnlock (CRet (LBool false)))) in                                               (* 80 *)
    CGet FUntil (fun until => if negb (now <=? until) then fw_reset_code now k else k)))   (* 72-74, 93-95 *)
  | FCapacity => CGet FCap (fun capacity => CRet (LInt capacity))                          (* 84-86 *)
  | FWindowSize => CGet FWin (fun window => CRet (LInt window))                            (* 88-90 *)
  end.

(** ** SyncSlidingWindow *)
(** slidingwindow.go:54-60; the pointer [records] never changes, so the field here is the list behind it, and Len and
    Front count as reading it, PushBack and Remove as reading and writing it. *)
Inductive swfield := WCap | WWin | WRecords.
Definition swfield_eq : forall f g : swfield, {f = g} + {f <> g}. Proof. decide equality. Defined.
Inductive swvalue := VInt (z : Z) | VList (l : list Z).
Definition as_int (v : swvalue) : Z := match v with VInt z => z | VList _ => 0 end.
Definition as_list (v : swvalue) : list Z := match v with VList l => l | VInt _ => [] end.
Inductive swmethod := WAcquire | WCapacity | WWindowSize | WUpdateConfig (capacity windowSize : Z).
Definition sw_mem (s : sw) : mem swfield swvalue :=
  fun f => match f with WCap => VInt (sw_capacity s) | WWin => VInt (sw_window s) | WRecords => VList (sw_records s) end.
Definition swcode := code swfield swvalue lresult.
Definition len (l : list Z) : Z := Z.of_nat (length l).
Definition WInt (f : swfield) (k : Z -> swcode) : swcode := CGet f (fun v => k (as_int v)).
Definition WList (k : list Z -> swcode) : swcode := CGet WRecords (fun v => k (as_list v)).
Definition WPushBack (x : Z) (k : swcode) : swcode := WList (fun l => CSet WRecords (VList (l ++ [x])) k).
(** Removes the first element: the only one that is ever removed (82, 111). *)
Definition WRemoveFront (k : swcode) : swcode := WList (fun l => CSet WRecords (VList (tl l)) k).

(** slidingwindow.go:109-112, the loop when its first [Len()] has read [l]; [n] bounds the turns (the list only gets
    shorter, by one element in each turn). *)
Fixpoint sw_loop (n : nat) (capacity : Z) (l : list Z) (k : swcode) : swcode :=
  if 0 <? len l then
    WList (fun l2 => if capacity <? len l2 then                                            (* 109 *)
      match n with
      | O => k
      | S n => WList (fun _ => WRemoveFront (WList (fun l3 => sw_loop n capacity l3 k)))   (* 111 *)
      end
    else k)
  else k.

Definition sw_body (m : swmethod) : swcode :=
  match m with
  | WAcquire =>                                                                            (* 62-87 *)
    CClock (fun now => CLock (                                                             (* 63-66 *)
    WInt WCap (fun capacity => if capacity =? 0 then CUnlock (CRet (LBool true))           (* 68-70 *)
    else WList (fun l => WInt WCap (fun capacity =>
    if len l <? capacity then WPushBack now (CUnlock (CRet (LBool true)))                  (* 72-76 *)
    else WList (fun l => match l with                                                      (* 78-79 *)
      | [] => CUnlock (CRet LPanic)
      | oldest :: _ => WInt WWin (fun window =>
        if window <? i64 (now - oldest)                                                    (* 80 *)
        then WRemoveFront (WPushBack now (CUnlock (CRet (LBool true))))                    (* 82-84 *)
        else CUnlock (CRet (LBool false)))                                                 (* 86 *)
      end))))))
  | WCapacity => CRLock (WInt WCap (fun capacity => CRUnlock (CRet (LInt capacity))))      (* 89-93 *)
  | WWindowSize => CRLock (WInt WWin (fun window => CRUnlock (CRet (LInt window))))        (* 95-99 *)
  | WUpdateConfig capacity windowSize =>                                                   (* 101-117 *)
    CLock (let capacity := if capacity <? 0 then 0 else capacity in                        (* 105-107 *)
    WList (fun l => sw_loop (length l) capacity l
    (CSet WCap (VInt capacity) (CSet WWin (VInt windowSize) (CUnlock (CRet LUnit))))))     (* 114-115 *)
  end.

(** ** SyncCircuitBreaker
    [Do] (75-89) calls [state], then the task without the lock, then [recordFailure] or [reset]: each of these is a
    method here. *)
(** circuitbreaker.go:66-73, the fields but [lock] and [nowFn]. *)
Inductive cbfield := CThreshold | CLast | CFailures | CTimeout.
Definition cbfield_eq : forall f g : cbfield, {f = g} + {f <> g}. Proof. decide equality. Defined.
Inductive cbmethod := CState | CRecordFailure | CReset.
Definition cb_mem (threshold last failures timeout : Z) : mem cbfield Z :=
  fun f => match f with CThreshold => threshold | CLast => last | CFailures => failures | CTimeout => timeout end.

Definition cb_body (m : cbmethod) : code cbfield Z lresult :=
  match m with
  | CState =>                                                                              (* 99-111 *)
    CClock (fun now => CRLock (                                                            (* 100-102 *)
    let k := CGet CFailures (fun failures => CGet CThreshold (fun threshold =>
      CRUnlock (CRet (LState (if threshold <=? failures then CbOpen else CbClosed))))) in  (* 106-110 *)
    CGet CFailures (fun failures => CGet CThreshold (fun threshold =>
    if threshold <=? failures then CGet CLast (fun last => CGet CTimeout (fun timeout =>
      if timeout <? i64 (now - last) then CRUnlock (CRet (LState CbHalfOpen)) else k))     (* 104-105 *)
    else k))))
  | CRecordFailure =>                                                                      (* 91-97 *)
    CLock (CGet CFailures (fun failures => CSet CFailures (i64 (failures + 1))             (* 95 *)
    (CClock (fun now => CSet CLast now (CUnlock (CRet LUnit))))))                          (* 96 *)
  | CReset => CLock (CSet CFailures 0 (CSet CLast 0 (CUnlock (CRet LUnit))))               (* 113-119 *)
  end.

(** ** Objects used by [n] goroutines
    The constructors tokenbucket.go:34-42, fixedwindow.go:49-55, slidingwindow.go:42-52 and circuitbreaker.go:58-64,
    called when the clock shows [t0]; then the schedule [sched]. *)
Definition bucket_exec (capacity rate t0 : Z) (n : nat) := mon_exec tbfield_eq tb_body (tb_mem (new_sync_bucket capacity rate t0)) t0 n.
Definition fixed_exec (capacity windowSize t0 : Z) (n : nat) := mon_exec fwfield_eq fw_body (fw_mem (new_fw capacity windowSize)) t0 n.
Definition sliding_exec (capacity windowSize t0 : Z) (n : nat) := mon_exec swfield_eq sw_body (sw_mem (new_sw capacity windowSize)) t0 n.
Definition circuit_exec (threshold timeout t0 : Z) (n : nat) := mon_exec cbfield_eq cb_body (cb_mem threshold 0 0 timeout) t0 n.
