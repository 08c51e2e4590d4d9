(** Model of /repo/concurrent/sema.go as two thread machines over the same labels and events.

    Go's own primitives are modelled by their documented meaning: mutual exclusion of [sync.Mutex]
    (each critical section is one step, none contains a blocking operation other than [Cond.Wait]);
    [Cond.Wait] enqueues the caller and releases the mutex in one indivisible action, [Broadcast] wakes
    all enqueued callers; channel sends and receives are atomic and blocked senders are served in order.
    When a receive hands the slot to a blocked sender, that sender's [Acquire] counts as returned at that
    moment (the goroutine resuming later is not a separate step). *)
From Verif Require Import Common Threads.

Inductive sop := OpAcquire | OpRelease | OpTry.

Inductive slabel :=
| SCall (i : nat) (o : sop)  (* goroutine i calls a method *)
| SStep (i : nat).           (* goroutine i takes its next step *)

Inductive sevent :=
| ESCall (i : nat) (o : sop)
| ESAcquired (i : nat)          (* Acquire returns *)
| ESTried (i : nat) (ok : bool) (* TryAcquire returns [ok] *)
| ESReleased (i : nat).         (* Release returns *)

Inductive spc :=
| SIdle
| SAcq      (* in Acquire: about to lock and test (92-93), or about to send (61) *)
| SWait     (* asleep: in Cond.Wait (94), or in the channel's queue of blocked senders (61) *)
| SRel      (* in Release *)
| STry.     (* in TryAcquire *)

Definition spc_of (o : sop) : spc :=
  match o with OpAcquire => SAcq | OpRelease => SRel | OpTry => STry end.

(** ** LockSemaphore, sema.go:84-89 *)
Record lsema := LSema { ls_permits : Z; ls_count : Z; ls_threads : list spc }.

(** sema.go:46-52, [NewLockSemaphore], used by [n] goroutines. *)
Definition new_lock_sema (permits : Z) (n : nat) : lsema := LSema permits 0 (repeat SIdle n).

(** sema.go:120-122, [isFull]. *)
Definition ls_full (s : lsema) : bool := ls_permits s <=? ls_count s.

(** [Broadcast], line 107: every sleeper is woken; it must take the lock and test again (93). *)
Definition wake (pc : spc) : spc := match pc with SWait => SAcq | _ => pc end.

Definition lstep (s : lsema) (l : slabel) : option (lsema * list sevent) :=
  match l with
  | SCall i o =>
      match nth_error (ls_threads s) i with
      | Some SIdle => Some (LSema (ls_permits s) (ls_count s) (upd i (spc_of o) (ls_threads s)), [ESCall i o])
      | _ => None
      end
  | SStep i =>
      match nth_error (ls_threads s) i with
      | Some SAcq =>                                                            (* 91-98 *)
          if ls_full s then Some (LSema (ls_permits s) (ls_count s) (upd i SWait (ls_threads s)), [])
          else Some (LSema (ls_permits s) (i64 (ls_count s + 1)) (upd i SIdle (ls_threads s)), [ESAcquired i])
      | Some SRel =>                                                            (* 100-108 *)
          if ls_count s <=? 0
          then Some (LSema (ls_permits s) (ls_count s) (upd i SIdle (ls_threads s)), [ESReleased i])
          else Some (LSema (ls_permits s) (i64 (ls_count s - 1)) (map wake (upd i SIdle (ls_threads s))),
                     [ESReleased i])
      | Some STry =>                                                            (* 110-118 *)
          if ls_full s
          then Some (LSema (ls_permits s) (ls_count s) (upd i SIdle (ls_threads s)), [ESTried i false])
          else Some (LSema (ls_permits s) (i64 (ls_count s + 1)) (upd i SIdle (ls_threads s)), [ESTried i true])
      | Some SIdle | Some SWait | None => None
      end
  end.

(** ** ChanSemaphore, sema.go:55-57.  [cs_len] is the number of values in the channel's buffer (their
    content, 0, is irrelevant), [cs_queue] the blocked senders, first come first. *)
Record csema := CSema { cs_cap : Z; cs_len : Z; cs_queue : list nat; cs_threads : list spc }.

(** sema.go:37-41, [NewChanSemaphore]; [make(chan int, permits)] panics for a negative size. *)
Definition new_chan_sema (permits : Z) (n : nat) : option csema :=
  if permits <? 0 then None else Some (CSema permits 0 [] (repeat SIdle n)).

Definition cstep (s : csema) (l : slabel) : option (csema * list sevent) :=
  match l with
  | SCall i o =>
      match nth_error (cs_threads s) i with
      | Some SIdle => Some (CSema (cs_cap s) (cs_len s) (cs_queue s) (upd i (spc_of o) (cs_threads s)), [ESCall i o])
      | _ => None
      end
  | SStep i =>
      match nth_error (cs_threads s) i with
      | Some SAcq =>                                                            (* 59-62 *)
          if cs_len s <? cs_cap s
          then Some (CSema (cs_cap s) (cs_len s + 1) (cs_queue s) (upd i SIdle (cs_threads s)), [ESAcquired i])
          else Some (CSema (cs_cap s) (cs_len s) (cs_queue s ++ [i]) (upd i SWait (cs_threads s)), [])
      | Some SRel =>                                                            (* 64-70 *)
          match cs_queue s with
          | j :: queue =>  (* a receive with a blocked sender: its value takes the freed place *)
              Some (CSema (cs_cap s) (cs_len s) queue (upd j SIdle (upd i SIdle (cs_threads s))),
                    [ESReleased i; ESAcquired j])
          | [] =>
              if 0 <? cs_len s
              then Some (CSema (cs_cap s) (cs_len s - 1) [] (upd i SIdle (cs_threads s)), [ESReleased i])
              else Some (CSema (cs_cap s) (cs_len s) [] (upd i SIdle (cs_threads s)), [ESReleased i])
          end
      | Some STry =>                                                            (* 72-81 *)
          if cs_len s <? cs_cap s
          then Some (CSema (cs_cap s) (cs_len s + 1) (cs_queue s) (upd i SIdle (cs_threads s)), [ESTried i true])
          else Some (CSema (cs_cap s) (cs_len s) (cs_queue s) (upd i SIdle (cs_threads s)), [ESTried i false])
      | Some SIdle | Some SWait | None => None
      end
  end.

Definition lock_exec (permits : Z) (n : nat) (sched : list slabel) : lsema * list sevent :=
  exec lstep (new_lock_sema permits n) sched.
Definition chan_exec (permits : Z) (n : nat) (sched : list slabel) : option (csema * list sevent) :=
  option_map (fun s => exec cstep s sched) (new_chan_sema permits n).
