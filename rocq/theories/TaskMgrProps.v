(** Theorems about the task manager (C61).  [name] gives every task its name; [n] goroutines call the
    manager, and Start and Stop of any task. *)
From Verif Require Import Common Threads Bytes TaskMgrModel TaskMgrSpec TaskMgrProofs.
Local Open Scope string_scope.
Local Open Scope list_scope.
Local Open Scope Z_scope.

(** A name stands for at most one task, which has that name and has been started. *)
Theorem manager_registry : forall name n sched nm t, registered name (snd (mexec name n sched)) nm = Some t ->
  name t = nm /\ was_started t (snd (mexec name n sched)) = true.
Proof. exact registry. Qed.
Print Assumptions manager_registry.

(** Register: an error if the name is taken; a panic if the task has been started before; otherwise it
    starts the task and succeeds. *)
Theorem manager_register : forall name n sched a i t r b,
  snd (mexec name n sched) = a ++ VRet i (MRegister t) r :: b -> r = register_due name a t.
Proof. exact (fun name n sched a i t r b => results name n sched a (VRet i (MRegister t) r) b). Qed.
Print Assumptions manager_register.

(** Unregister: never fails; when it returns, the task of that name has been stopped. *)
Theorem manager_unregister : forall name n sched a i nm r b,
  snd (mexec name n sched) = a ++ VRet i (MUnregister nm) r :: b ->
  r = MOk /\ forall t, registered name a nm = Some t -> was_stopped t a = true.
Proof. exact (fun name n sched a i nm r b => results name n sched a (VRet i (MUnregister nm) r) b). Qed.
Print Assumptions manager_unregister.

(** UnregisterAll: when it returns, all registered tasks have been stopped. *)
Theorem manager_unregister_all : forall name n sched a i r b,
  snd (mexec name n sched) = a ++ VRet i MUnregisterAll r :: b ->
  r = MOk /\ forall nm t, registered name a nm = Some t -> was_stopped t a = true.
Proof. exact (fun name n sched a i r b => results name n sched a (VRet i MUnregisterAll r) b). Qed.
Print Assumptions manager_unregister_all.

(** No other task is touched: a task that is stopped was running, and whoever stopped it had called its
    Stop, Unregister with its name or UnregisterAll, in the latter cases while it was registered. *)
Theorem manager_stops_only : forall name n sched a i t b,
  snd (mexec name n sched) = a ++ VStopped i t :: b ->
  was_started t a = true /\ was_stopped t a = false /\
  (calling i a = Some (MStop t) \/
   registered name a (name t) = Some t /\ (calling i a = Some (MUnregister (name t)) \/ calling i a = Some MUnregisterAll)).
Proof. exact (fun name n sched a i t b => results name n sched a (VStopped i t) b). Qed.
Print Assumptions manager_stops_only.

(** Direct calls keep working as on tasks that are not managed. *)
Theorem manager_direct_start : forall name n sched a i t r b,
  snd (mexec name n sched) = a ++ VRet i (MStart t) r :: b -> r = if was_started t a then MErr else MOk.
Proof. exact (fun name n sched a i t r b => results name n sched a (VRet i (MStart t) r) b). Qed.
Print Assumptions manager_direct_start.

Theorem manager_direct_stop : forall name n sched a i t r b,
  snd (mexec name n sched) = a ++ VRet i (MStop t) r :: b ->
  (r = MErr /\ was_started t a && negb (was_stopped t a) = false) \/ (r = MOk /\ exists a', a = a' ++ [VStopped i t]).
Proof. exact (fun name n sched a i t r b => results name n sched a (VRet i (MStop t) r) b). Qed.
Print Assumptions manager_direct_stop.

(** Every call can return, without new calls. *)
Theorem manager_calls_return : forall name n sched i o, calling i (snd (mexec name n sched)) = Some o ->
  exists sched' r, Forall (fun l => match l with MStep _ _ => True | MCall _ _ => False end) sched' /\
    In (VRet i o r) (snd (exec (mstep name) (fst (mexec name n sched)) sched')).
Proof. exact manager_returns. Qed.
Print Assumptions manager_calls_return.

(** A failed Register does change something: when it panics, because the task was already started, the name
    stays taken, so a fresh task of that name cannot be registered. *)
Theorem manager_failed_register_refuted : exists name sched a b,
  snd (mexec name 1 sched) = a ++ VRet 0 (MRegister 0) MPanic :: b /\ registered name a (name 0%nat) = None /\
  was_started 1 a = false /\ In (VRet 0 (MRegister 1) MErr) b.
Proof.
  exists (fun _ => "job"), [MCall 0 (MStart 0); MStep 0 0; MCall 0 (MRegister 0); MStep 0 0; MStep 0 0; MCall 0 (MRegister 1); MStep 0 0],
    [VCall 0 (MStart 0); VRet 0 (MStart 0) MOk; VCall 0 (MRegister 0)], [VCall 0 (MRegister 1); VRet 0 (MRegister 1) MErr].
  split; [vm_compute; reflexivity|]. split; [vm_compute; reflexivity|]. split; [vm_compute; reflexivity|]. right. left. reflexivity.
Qed.
Print Assumptions manager_failed_register_refuted.

(** Two tasks named "a", one named "b": registered, a duplicate, one unregistered by its name, then all,
    in the other order than they were registered. *)
Definition demo_name (t : nat) : string := match t with 0%nat | 1%nat => "a" | 2%nat => "b" | _ => "c" end.
Example manager_case : snd (mexec demo_name 2
  [MCall 0 (MRegister 0); MStep 0 0; MCall 1 (MRegister 1); MStep 0 0; MStep 1 0; MCall 0 (MRegister 2); MStep 0 0; MStep 0 0; MCall 0 (MRegister 3); MStep 0 0; MStep 0 0;
   MCall 1 (MUnregister "a"); MStep 1 0; MCall 0 (MStop 0); MStep 0 0; MStep 1 0; MCall 0 MUnregisterAll; MStep 0 0; MStep 0 1; MStep 0 0; MStep 0 0]) =
  [VCall 0 (MRegister 0); VCall 1 (MRegister 1); VRet 0 (MRegister 0) MOk; VRet 1 (MRegister 1) MErr; VCall 0 (MRegister 2); VRet 0 (MRegister 2) MOk;
   VCall 0 (MRegister 3); VRet 0 (MRegister 3) MOk; VCall 1 (MUnregister "a"); VCall 0 (MStop 0); VStopped 0 0; VRet 0 (MStop 0) MOk; VRet 1 (MUnregister "a") MOk;
   VCall 0 MUnregisterAll; VStopped 0 2; VStopped 0 3; VRet 0 MUnregisterAll MOk].
Proof. vm_compute. reflexivity. Qed.
