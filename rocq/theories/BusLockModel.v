(** The event bus (BusModel.v, /repo/event/bus.go) with the queueing of sync.RWMutex: a goroutine that calls
    Lock first becomes the waiting writer; then no dispatcher gets the read lock until the writer has had the
    write lock and released it; at most one writer waits like this, others queue behind it.  (In Go the readers
    that wait when the writer unlocks go before the next writer; here either may come first.) *)
From Verif Require Import Common Bytes Threads BusModel.
Local Open Scope list_scope.

(** The bus, and the goroutine that waits for the readers to leave (bus.go:35 recvMapLock). *)
Record lbus := LBus { k_bus : bus; k_writer : option nat }.

(** The calls that lock recvMapLock for writing, bus.go:73, 88, 107. *)
Definition needs_lock (c : cpc) : bool := match c with CNew _ _ _ | CClose _ | CBusClose => true | _ => false end.

Definition keep (s : lbus) (r : option (bus * list bevent)) : option (lbus * list bevent) :=
  match r with Some (b, es) => Some (LBus b (k_writer s), es) | None => None end.

Definition lstep (s : lbus) (l : blabel) : option (lbus * list bevent) :=
  let b := k_bus s in
  match l with
  | LClient i _ =>
    match nth_error (b_clients b) i with
    | Some c =>
      if needs_lock c then
        match k_writer s with
        | None => if b_stuck b then None else Some (LBus b (Some i), [])
        | Some j =>
          if Nat.eqb j i
          then match bstep b l with Some (b', es) => Some (LBus b' None, es) | None => None end
          else None
        end
      else keep s (bstep b l)
    | None => None
    end
  | LDisp d _ _ =>
    match nth_error (b_disp b) d, k_writer s with
    | Some (DLock _), Some _ => None                                             (* RLock, 98 *)
    | _, _ => keep s (bstep b l)
    end
  | _ => keep s (bstep b l)
  end.

Definition new_lbus (bufSize : Z) (n : nat) : lbus := LBus (new_bus bufSize n) None.
Definition lbus_exec (bufSize : Z) (n : nat) (sched : list blabel) : lbus * list bevent :=
  exec lstep (new_lbus bufSize n) sched.
