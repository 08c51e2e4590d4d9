(** LockSemaphore of /repo/concurrent/sema.go with one step per access to a field, operation on the mutex or
    action of the condition variable, where SemaModel.v has one step per critical section.

    Go's own primitives by their implementation in package sync: [Cond.Wait] puts the caller on the notify list,
    unlocks the mutex, sleeps until it is no longer on the list and locks the mutex again; [Broadcast] empties
    the list.  A mutex is not fair: whoever makes its step first gets it.  [isFull] reads [count] before
    [permits]. *)
From Verif Require Import Common Threads SemaModel.

Inductive fpc :=
| FIdle
| FLock (o : sop)            (* about to lock: 92, 101, 111 *)
| FReadC (o : sop)           (* about to read count in a test: 121 (from 93 or 113) or 103 *)
| FReadP (o : sop) (c : Z)   (* about to read permits, having read count as [c]: 121 *)
| FReadN (o : sop)           (* about to read count in count++ or count--: 96, 106, 116 *)
| FWriteN (o : sop) (c : Z)  (* about to write what becomes of [c]: 96, 106, 116 *)
| FBroadcast                 (* 107 *)
| FWaitAdd                   (* 94: Wait begins *)
| FWaitUnlock                (* 94: Wait unlocks *)
| FWaitSleep                 (* 94: Wait sleeps *)
| FWaitLock                  (* 94: Wait locks *)
| FUnlock (e : sevent)       (* about to unlock: 97, 102, 112 *)
| FReturn (e : sevent).      (* about to return *)

(** [fs_lock]: the goroutine that has the mutex; [fs_list]: the goroutines on the notify list. *)
Record fsema := FSema { fs_permits : Z; fs_count : Z; fs_lock : option nat; fs_list : list nat; fs_threads : list fpc }.

(** sema.go:46-52, [NewLockSemaphore], used by [n] goroutines. *)
Definition new_fine_sema (permits : Z) (n : nat) : fsema := FSema permits 0 None [] (repeat FIdle n).

Definition listed (i : nat) (l : list nat) : bool := existsb (Nat.eqb i) l.

(** One step of goroutine [i] in Acquire (91-98), Release (100-108) or TryAcquire (110-118). *)
Definition fgo (s : fsema) (i : nat) (pc : fpc) : option (fsema * list sevent) :=
  let '(FSema permits count lock list threads) := s in
  let to pc' := Some (FSema permits count lock list (upd i pc' threads), []) in
  match pc with
  | FIdle => None
  | FLock o =>
      match lock with None => Some (FSema permits count (Some i) list (upd i (FReadC o) threads), []) | Some _ => None end
  | FReadC OpRelease => to (if count <=? 0 then FUnlock (ESReleased i) else FReadN OpRelease)
  | FReadC o => to (FReadP o count)
  | FReadP o c =>
      to (if permits <=? c then match o with OpTry => FUnlock (ESTried i false) | _ => FWaitAdd end else FReadN o)
  | FReadN o => to (FWriteN o count)
  | FWriteN OpAcquire c => Some (FSema permits (i64 (c + 1)) lock list (upd i (FUnlock (ESAcquired i)) threads), [])
  | FWriteN OpTry c => Some (FSema permits (i64 (c + 1)) lock list (upd i (FUnlock (ESTried i true)) threads), [])
  | FWriteN OpRelease c => Some (FSema permits (i64 (c - 1)) lock list (upd i FBroadcast threads), [])
  | FBroadcast => Some (FSema permits count lock [] (upd i (FUnlock (ESReleased i)) threads), [])
  | FWaitAdd => Some (FSema permits count lock (i :: list) (upd i FWaitUnlock threads), [])
  | FWaitUnlock => Some (FSema permits count None list (upd i FWaitSleep threads), [])
  | FWaitSleep => if listed i list then None else to FWaitLock
  | FWaitLock =>
      match lock with None => Some (FSema permits count (Some i) list (upd i (FReadC OpAcquire) threads), []) | Some _ => None end
  | FUnlock e => Some (FSema permits count None list (upd i (FReturn e) threads), [])
  | FReturn e => Some (FSema permits count lock list (upd i FIdle threads), [e])
  end.

Definition fstep (s : fsema) (l : slabel) : option (fsema * list sevent) :=
  match l with
  | SCall i o =>
      match nth_error (fs_threads s) i with
      | Some FIdle =>
          Some (FSema (fs_permits s) (fs_count s) (fs_lock s) (fs_list s) (upd i (FLock o) (fs_threads s)), [ESCall i o])
      | _ => None
      end
  | SStep i => match nth_error (fs_threads s) i with Some pc => fgo s i pc | None => None end
  end.

Definition fine_exec (permits : Z) (n : nat) (sched : list slabel) : fsema * list sevent :=
  exec fstep (new_fine_sema permits n) sched.
