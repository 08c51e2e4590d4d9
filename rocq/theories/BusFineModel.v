(** The event bus (BusModel.v, /repo/event/bus.go) with one step for each thing a goroutine does while it holds the
    write lock: taking the lock, each read, assignment and deletion of the map recvMap, each close of a channel, and
    the release of the lock.  Between two of these steps all other goroutines may run.  As in BusModel.v a waiting
    writer does not keep readers out (more executions, not fewer), and a goroutine that panics with the lock held
    leaves it locked for ever.  A dispatcher in its loop (99-101) has the list of the receivers still to come; that
    the map does not change under the loop is proved in BusFineProps.v. *)
From Verif Require Import Common Bytes Threads BusModel BusLockModel.
Local Open Scope list_scope.

(** What a goroutine that holds the write lock does next. *)
Inductive wpc :=
| WPut (name : string) (cap strategy : Z)   (* bus.go:74, the assignment *)
| WFind (r : nat)                           (* 108, reading the map; Close of receiver r *)
| WShut (r r' : nat)                        (* 108, closing the channel found, that of receiver r' *)
| WDel (r : nat)                            (* 109 *)
| WNext                                     (* 89, the next entry of the map *)
| WShutNext (name : string) (r : nat)       (* 90 *)
| WDelNext (name : string) (r : nat)        (* 91 *)
| WUnlock (e : bevent)                      (* 75, 93 or 110, then return *)
| WDead.                                    (* panicked, holding the lock *)

Record fbus := FBus {
  f_bus : bus;                (* goroutines in a critical section are at its beginning here *)
  f_lock : option nat;        (* who holds the write lock *)
  f_in : list (option wpc)    (* for each client goroutine: where it is in its critical section *)
}.

(** Lock returns, bus.go:73, 88, 107. *)
Definition enter (c : cpc) : option wpc :=
  match c with
  | CNew name cap strategy => Some (WPut name cap strategy)
  | CClose r => Some (WFind r)
  | CBusClose => Some WNext
  | _ => None
  end.

Definition goto (s : fbus) (b : bus) (i : nat) (w : wpc) : fbus := FBus b (f_lock s) (upd i (Some w) (f_in s)).
Definition panic (s : fbus) (b : bus) (i : nat) : fbus * list bevent := (goto s b i WDead, [EClosePanic i]).

(** A step in the critical section; [k] is the number of the entry that the range loop (89) comes to next. *)
Definition wstep (s : fbus) (i k : nat) (w : wpc) : option (fbus * list bevent) :=
  let b := f_bus s in
  match w with
  | WPut name cap strategy =>
    let r := length (b_recvs b) in
    Some (goto s (Bus (b_cap b) (b_buf b) (b_closed b) (assign (b_map b) name r)
                      (b_recvs b ++ [Recv name strategy cap [] false]) (b_disp b) (b_clients b) (b_stuck b))
               i (WUnlock (EReg i r name cap strategy)), [])
  | WFind r =>
    match nth_error (b_recvs b) r with
    | None => None
    | Some me =>
      match lookup (b_map b) (r_name me) with
      | None => Some (panic s b i)                                  (* nil.ch *)
      | Some r' => Some (goto s b i (WShut r r'), [])
      end
    end
  | WShut r r' =>
    match nth_error (b_recvs b) r' with
    | None => None
    | Some x => if r_closed x then Some (panic s b i)
                else Some (goto s (set_recv r' (closed x) b) i (WDel r), [EClosedRecv r'])
    end
  | WDel r =>
    match nth_error (b_recvs b) r with
    | None => None
    | Some me => Some (goto s (set_map (remove (b_map b) (r_name me)) b) i (WUnlock (ECloseReturns i r)), [])
    end
  | WNext =>
    match b_map b with
    | [] => Some (goto s b i (WUnlock (EBusClosed i)), [])
    | _ => match nth_error (b_map b) k with
           | Some (name, r) => Some (goto s b i (WShutNext name r), [])
           | None => None
           end
    end
  | WShutNext name r =>
    match nth_error (b_recvs b) r with
    | None => None
    | Some x => if r_closed x then Some (panic s b i)
                else Some (goto s (set_recv r (closed x) b) i (WDelNext name r), [EClosedRecv r])
    end
  | WDelNext name r => Some (goto s (set_map (remove (b_map b) name) b) i WNext, [])
  | WUnlock e => Some (FBus (set_client i CIdle b) None (upd i None (f_in s)), [e])
  | WDead => None
  end.

Definition outside_step (s : fbus) (r : option (bus * list bevent)) : option (fbus * list bevent) :=
  match r with Some (b, es) => Some (FBus b (f_lock s) (f_in s), es) | None => None end.

Definition fbstep (s : fbus) (l : blabel) : option (fbus * list bevent) :=
  let b := f_bus s in
  match l with
  | LClient i k =>
    match nth_error (f_in s) i, nth_error (b_clients b) i with
    | Some (Some w), Some _ => wstep s i k w
    | Some None, Some c =>
      match enter c with
      | Some w =>                                                    (* Lock, 73, 88, 107 *)
        match f_lock s with
        | None => if existsb reading (b_disp b) then None else Some (FBus b (Some i) (upd i (Some w) (f_in s)), [])
        | Some _ => None
        end
      | None => outside_step s (bstep b l)
      end
    | _, _ => None
    end
  | LDisp d _ _ =>
    match nth_error (b_disp b) d, f_lock s with
    | Some (DLock _), Some _ => None                                 (* RLock, 98 *)
    | _, _ => outside_step s (bstep b l)
    end
  | _ => outside_step s (bstep b l)
  end.

Definition new_fbus (bufSize : Z) (n : nat) : fbus := FBus (new_bus bufSize n) None (repeat None n).
Definition fbus_exec (bufSize : Z) (n : nat) (sched : list blabel) : fbus * list bevent :=
  exec fbstep (new_fbus bufSize n) sched.
