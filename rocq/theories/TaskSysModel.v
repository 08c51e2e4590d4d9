(** The task manager (/repo/schedule/task_manager.go) with the tasks it manages: TaskMgrModel.v with the machine of
    ScheduleModel.v in the place of every task.  All tasks see one clock.  The goroutines that call the manager also
    call Start and Stop of tasks directly; they may be those that run jobs.  While it holds the manager's lock a
    goroutine waits for the task's Start or Stop to return; meanwhile everything else goes on. *)
From Verif Require Import Common Threads Bytes ScheduleModel TaskMgrModel.
Local Open Scope list_scope.
Local Open Scope Z_scope.

Inductive ypc :=
| YIdle
| YWant (o : mop)                               (* called, holds nothing *)
| YDirect (o : mop) (t : nat)                   (* in Start or Stop of task t *)
| YReg (t : nat)                                (* in Register, in t.MustStart: task_manager.go:61 *)
| YUnreg (nm : string) (t : nat)                (* in Unregister, in t.Stop: 73 *)
| YAll (rest : list nat)                        (* in the loop of UnregisterAll, 81 *)
| YAllIn (rest : list nat) (k t : nat).         (* in Stop of its entry k, task t: 82 *)

Record sys := Sys {
  y_locked : bool;
  y_map : list (string * nat);
  y_tasks : nat -> task;
  y_pcs : list ypc
}.

(** Calls and returns of the manager and of direct calls; everything that happens in task t. *)
Inductive yevent := YM (e : mevent) | YT (t : nat) (e : event).

Inductive ylabel := YCall (i : nat) (o : mop) | YStep (i k : nat) | YTask (t : nat) (l : label) | YTime (d : Z).

Definition yinit (t0 : Z) (n : nat) : sys := Sys false [] (fun _ => init t0 n) (repeat YIdle n).

Definition at_pc (i : nat) (p : ypc) (y : sys) : sys := Sys (y_locked y) (y_map y) (y_tasks y) (upd i p (y_pcs y)).
Definition put_lock (b : bool) (y : sys) : sys := Sys b (y_map y) (y_tasks y) (y_pcs y).
Definition put_map (l : list (string * nat)) (y : sys) : sys := Sys (y_locked y) l (y_tasks y) (y_pcs y).
Definition put_task (t : nat) (s : task) (y : sys) : sys :=
  Sys (y_locked y) (y_map y) (fun x => if Nat.eqb x t then s else y_tasks y x) (y_pcs y).

(** Goroutine [i] calls [o] of task [t]. *)
Definition into (cfgs : nat -> cfg) (i t : nat) (o : op) (p : ypc) (y : sys) : option (sys * list yevent) :=
  match tstep (cfgs t) (y_tasks y t) (LCall i o) with
  | Some (s, es) => Some (at_pc i p (put_task t s y), map (YT t) es)
  | None => None
  end.

(** The call of [i] has come back with [r]. *)
Definition back (i : nat) (r : result) (y : sys) : sys * list yevent :=
  let ok := match r with Ok => true | _ => false end in
  match nth_error (y_pcs y) i with
  | Some (YDirect o _) => (at_pc i YIdle y, [YM (VRet i o (if ok then MOk else MErr))])
  (* task_manager.go:61-62; MustStart panics if Start fails, the deferred Unlock is done all the same *)
  | Some (YReg t) => (at_pc i YIdle (put_lock false y), [YM (VRet i (MRegister t) (if ok then MOk else MPanic))])
  (* 73-74 *)
  | Some (YUnreg nm _) => (at_pc i YIdle (put_lock false (put_map (delete_task nm (y_map y)) y)), [YM (VRet i (MUnregister nm) MOk)])
  (* 82 *)
  | Some (YAllIn rest k _) => (at_pc i (YAll (remove_nth k rest)) y, [])
  | _ => (y, [])
  end.

Definition ystep (cfgs : nat -> cfg) (name : nat -> string) (y : sys) (l : ylabel) : option (sys * list yevent) :=
  match l with
  | YCall i o =>
    match nth_error (y_pcs y) i with
    | Some YIdle => Some (at_pc i (YWant o) y, [YM (VCall i o)])
    | _ => None
    end
  | YStep i k =>
    match nth_error (y_pcs y) i with
    | Some (YWant (MStart t)) => into cfgs i t OStart (YDirect (MStart t) t) y
    | Some (YWant (MStop t)) => into cfgs i t OStop (YDirect (MStop t) t) y
    (* task_manager.go:51-61 *)
    | Some (YWant (MRegister t)) =>
      if y_locked y then None
      else match find_task (name t) (y_map y) with
           | Some _ => Some (at_pc i YIdle y, [YM (VRet i (MRegister t) MErr)])
           | None => into cfgs i t OMustStart (YReg t) (put_lock true (put_map ((name t, t) :: y_map y) y))
           end
    (* 65-73 *)
    | Some (YWant (MUnregister nm)) =>
      if y_locked y then None
      else match find_task nm (y_map y) with
           | None => Some (at_pc i YIdle y, [YM (VRet i (MUnregister nm) MOk)])
           | Some t => into cfgs i t OStop (YUnreg nm t) (put_lock true y)
           end
    (* 77-86; range visits the entries in any order *)
    | Some (YWant MUnregisterAll) =>
      if y_locked y then None
      else Some (at_pc i (YAll (map snd (y_map y))) (put_lock true y), [])
    | Some (YAll []) => Some (at_pc i YIdle (put_lock false (put_map [] y)), [YM (VRet i MUnregisterAll MOk)])
    | Some (YAll rest) =>
      match nth_error rest k with
      | Some t => into cfgs i t OStop (YAllIn rest k t) y
      | None => None
      end
    | _ => None
    end
  | YTask t l =>
    match l with
    | LCall _ _ | LTime _ => None
    | _ =>
      match tstep (cfgs t) (y_tasks y t) l with
      | Some (s, es) =>
        let y1 := put_task t s y in
        match es with
        | [ERet i _ r _] => let '(y2, more) := back i r y1 in Some (y2, map (YT t) es ++ more)
        | _ => Some (y1, map (YT t) es)
        end
      | None => None
      end
    end
  | YTime d =>
    if 0 <=? d
    then Some (Sys (y_locked y) (y_map y)
                 (fun t => match tstep (cfgs t) (y_tasks y t) (LTime d) with Some (s, _) => s | None => y_tasks y t end) (y_pcs y), [])
    else None
  end.

Definition yexec (cfgs : nat -> cfg) (name : nat -> string) (t0 : Z) (n : nat) (sched : list ylabel) : sys * list yevent :=
  exec (ystep cfgs name) (yinit t0 n) sched.
