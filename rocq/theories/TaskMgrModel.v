(** Model of /repo/schedule/task_manager.go as a thread machine: goroutines calling the manager, and the
    same or others calling Start and Stop of the tasks directly.  Here a task is its name and its status;
    that its Start and Stop follow the status is shown for the task models in ScheduleProps.v (C56). *)
From Verif Require Import Common Threads Bytes ScheduleModel.
Local Open Scope list_scope.
Local Open Scope Z_scope.

(** Tasks are numbered; [MStart] and [MStop] are direct calls. *)
Inductive mop := MRegister (t : nat) | MUnregister (name : string) | MUnregisterAll | MStart (t : nat) | MStop (t : nat).
Inductive mres := MOk | MErr | MPanic.

Inductive mpc :=
| PIdle
| PWant (o : mop)                     (* called, holds nothing *)
| PReg (t : nat)                      (* in Register at task_manager.go:61, holding the lock *)
| PUnreg (name : string) (t : nat)    (* in Unregister at 73 *)
| PAll (rest : list nat).             (* in the loop of UnregisterAll, 81-83 *)

Record mgr := Mgr {
  m_locked : bool;
  m_map : list (string * nat);        (* taskMap *)
  m_status : nat -> Z;                (* of every task *)
  m_pcs : list mpc
}.

Inductive mevent :=
| VCall (i : nat) (o : mop)
| VStopped (i : nat) (t : nat)        (* goroutine i has stopped task t *)
| VRet (i : nat) (o : mop) (r : mres).

Inductive mlabel := MCall (i : nat) (o : mop) | MStep (i k : nat).

(** task_manager.go:44-49; all tasks are new. *)
Definition minit (n : nat) : mgr := Mgr false [] (fun _ => new) (repeat PIdle n).

Definition with_mpc (i : nat) (p : mpc) (m : mgr) : mgr := Mgr (m_locked m) (m_map m) (m_status m) (upd i p (m_pcs m)).
Definition with_lock (b : bool) (m : mgr) : mgr := Mgr b (m_map m) (m_status m) (m_pcs m).
Definition with_map (l : list (string * nat)) (m : mgr) : mgr := Mgr (m_locked m) l (m_status m) (m_pcs m).

(** m.taskMap[name] and delete(m.taskMap, name). *)
Fixpoint find_task (name : string) (l : list (string * nat)) : option nat :=
  match l with
  | [] => None
  | (k, t) :: l' => if String.eqb name k then Some t else find_task name l'
  end.
Definition delete_task (name : string) (l : list (string * nat)) : list (string * nat) :=
  filter (fun kt => negb (String.eqb name (fst kt))) l.

Definition set_st (t : nat) (st : Z) (m : mgr) : mgr :=
  Mgr (m_locked m) (m_map m) (fun x => if Nat.eqb x t then st else m_status m x) (m_pcs m).

(** Task.Start and Task.Stop (task.go:68-96): new state and whether it succeeded. *)
Definition do_start (t : nat) (m : mgr) : mgr * bool :=
  if m_status m t =? started then (m, false)
  else if m_status m t =? stopped then (m, false)
  else (set_st t started m, true).
Definition do_stop (i t : nat) (m : mgr) : mgr * list mevent * bool :=
  if m_status m t =? new then (m, [], false)
  else if m_status m t =? stopped then (m, [], false)
  else (set_st t stopped m, [VStopped i t], true).

Definition remove_nth {A} (k : nat) (l : list A) : list A := firstn k l ++ skipn (S k) l.

Definition mstep (name : nat -> string) (m : mgr) (l : mlabel) : option (mgr * list mevent) :=
  match l with
  | MCall i o =>
    match nth_error (m_pcs m) i with
    | Some PIdle => Some (with_mpc i (PWant o) m, [VCall i o])
    | _ => None
    end
  | MStep i k =>
    match nth_error (m_pcs m) i with
    | Some (PWant (MStart t)) =>
      let '(m1, ok) := do_start t m in
      Some (with_mpc i PIdle m1, [VRet i (MStart t) (if ok then MOk else MErr)])
    | Some (PWant (MStop t)) =>
      let '(m1, es, ok) := do_stop i t m in
      Some (with_mpc i PIdle m1, es ++ [VRet i (MStop t) (if ok then MOk else MErr)])
    (* task_manager.go:51-63 *)
    | Some (PWant (MRegister t)) =>
      if m_locked m then None
      else match find_task (name t) (m_map m) with
           | Some _ => Some (with_mpc i PIdle m, [VRet i (MRegister t) MErr])
           | None => Some (with_mpc i (PReg t) (with_lock true (with_map ((name t, t) :: m_map m) m)), [])
           end
    | Some (PReg t) =>
      let '(m1, ok) := do_start t m in
      Some (with_mpc i PIdle (with_lock false m1), [VRet i (MRegister t) (if ok then MOk else MPanic)])
    (* task_manager.go:65-75 *)
    | Some (PWant (MUnregister nm)) =>
      if m_locked m then None
      else match find_task nm (m_map m) with
           | None => Some (with_mpc i PIdle m, [VRet i (MUnregister nm) MOk])
           | Some t => Some (with_mpc i (PUnreg nm t) (with_lock true m), [])
           end
    | Some (PUnreg nm t) =>
      let '(m1, es, _) := do_stop i t m in
      Some (with_mpc i PIdle (with_lock false (with_map (delete_task nm (m_map m1)) m1)), es ++ [VRet i (MUnregister nm) MOk])
    (* task_manager.go:77-86; range visits the entries in any order *)
    | Some (PWant MUnregisterAll) =>
      if m_locked m then None
      else Some (with_mpc i (PAll (map snd (m_map m))) (with_lock true m), [])
    | Some (PAll []) => Some (with_mpc i PIdle (with_lock false (with_map [] m)), [VRet i MUnregisterAll MOk])
    | Some (PAll rest) =>
      match nth_error rest k with
      | Some t => let '(m1, es, _) := do_stop i t m in Some (with_mpc i (PAll (remove_nth k rest)) m1, es)
      | None => None
      end
    | _ => None
    end
  end.

Definition mexec (name : nat -> string) (n : nat) (sched : list mlabel) : mgr * list mevent := exec (mstep name) (minit n) sched.
