(** Theorems about the task manager together with its tasks (C119).  [cfgs] configures every task and [name]
    names it; [n] goroutines call the manager, and Start and Stop of any task, while all tasks run. *)
From Verif Require Import Common Threads Bytes ScheduleModel ScheduleSpec ScheduleProps TaskMgrModel TaskMgrSpec TaskMgrProofs
  TaskSysModel TaskSysSpec TaskSysProofs TaskSysLive.
Local Open Scope string_scope.
Local Open Scope list_scope.
Local Open Scope Z_scope.

(** Every task behaves as one that is called directly: what C56-C60 say holds for it. *)
Theorem managed_task_is_a_task : forall cfgs name t0 n sched t, exists sched',
  snd (texec (cfgs t) t0 n sched') = of_task t (snd (yexec cfgs name t0 n sched)).
Proof.
  intros cfgs name t0 n sched t. destruct (yi_tasks _ _ _ _ _ _ (yexec_inv cfgs name t0 n sched) t) as (s & E). exists s. rewrite E. reflexivity.
Qed.
Print Assumptions managed_task_is_a_task.

(** The manager behaves as if starting and stopping a task were one step: what C61 says holds for it. *)
Theorem manager_with_tasks_is_a_manager : forall cfgs name t0 n sched, exists sched',
  snd (mexec name n sched') = of_manager (snd (yexec cfgs name t0 n sched)).
Proof. exact man_trace. Qed.
Print Assumptions manager_with_tasks_is_a_manager.

(** When Unregister returns, the task of that name is winding down. *)
Theorem unregistered_winds_down : forall cfgs name t0 n sched a i nm r b t,
  snd (yexec cfgs name t0 n sched) = a ++ YM (VRet i (MUnregister nm) r) :: b ->
  registered name (of_manager a) nm = Some t -> r = MOk /\ winding_down cfgs t a b.
Proof. exact unregister_winds_down. Qed.
Print Assumptions unregistered_winds_down.

(** When UnregisterAll returns, all registered tasks are. *)
Theorem all_unregistered_wind_down : forall cfgs name t0 n sched a i r b nm t,
  snd (yexec cfgs name t0 n sched) = a ++ YM (VRet i MUnregisterAll r) :: b ->
  registered name (of_manager a) nm = Some t -> r = MOk /\ winding_down cfgs t a b.
Proof. exact unregister_all_winds_down. Qed.
Print Assumptions all_unregistered_wind_down.

(** A registered task that nobody has stopped can begin a further run within its interval, without any call. *)
Theorem registered_keeps_running : forall cfgs name t0 n sched nm t, let tr := snd (yexec cfgs name t0 n sched) in
  0 < c_interval (cfgs t) -> registered name (of_manager tr) nm = Some t -> was_stopped t (of_manager tr) = false ->
  exists sched' m u, Forall (fun l => match l with YCall _ _ => False | _ => True end) sched' /\ time_passed sched' <= c_interval (cfgs t) /\
    ~ In m (begun (of_task t tr)) /\ In (EBegin m u) (of_task t (snd (exec (ystep cfgs name) (fst (yexec cfgs name t0 n sched)) sched'))).
Proof. exact registered_runs. Qed.
Print Assumptions registered_keeps_running.

(** Every call of the manager, and of the tasks, can return without time passing, without further calls and
    without any job beginning or ending: so jobs, too, may call the manager. *)
Theorem manager_never_waits_for_jobs : forall cfgs name t0 n sched i o,
  calling i (of_manager (snd (yexec cfgs name t0 n sched))) = Some o ->
  exists sched' r, Forall (fun l => quiet_step l = true) sched' /\
    In (YM (VRet i o r)) (snd (exec (ystep cfgs name) (fst (yexec cfgs name t0 n sched)) sched')).
Proof. exact system_returns. Qed.
Print Assumptions manager_never_waits_for_jobs.

(** ** Example: two tasks *)
(** Task 0 has a fixed delay, task 1 a fixed rate; tasks 0 and 2 have the same name. *)
Definition pair_cfgs (t : nat) : cfg := match t with 1%nat => rate_cfg | _ => delay_cfg end.
Definition pair_name (t : nat) : string := match t with 1%nat => "b" | _ => "a" end.
Definition register_steps (i t : nat) : list ylabel :=
  [YCall i (MRegister t); YStep i 0; YTask t (LClient i); YTask t (LClientSend i 0)].
Definition both_registered : list ylabel := register_steps 0 0 ++ register_steps 1 1.
Definition first_begun : list ylabel := [YTask 0 (LCons 0); YTask 0 (LCons 0); YTask 0 (LRun 0); YTask 0 (LJobBegin 0)].
Definition twice_due : list ylabel :=
  [YTask 1 (LProvSend 0 0); YTask 1 (LCons 0); YTask 1 (LCons 0); YTime 10; YTask 1 LTicker; YTask 1 (LProvTick 0); YTask 1 (LProvSend 0 0); YTask 1 (LCons 0); YTask 1 (LCons 0)].

(** Task 0 runs; while goroutine 0 is stopping it in Unregister, goroutine 1 calls UnregisterAll, which has to
    wait.  The two runs of task 1 that were due begin after that. *)
Definition both_unregistered : list ylabel :=
  both_registered ++ first_begun ++ twice_due ++ [YCall 0 (MUnregister "a"); YStep 0 0; YCall 1 MUnregisterAll; YStep 1 0].
Definition both_gone : list ylabel :=
  both_unregistered ++ [YTask 0 (LClient 0); YStep 1 0; YStep 1 0; YTask 1 (LClient 1); YStep 1 0; YTask 1 (LRun 0); YTask 1 (LRun 1); YTask 1 (LJobBegin 0); YTask 1 (LJobBegin 1)].

Example both_gone_trace : snd (yexec pair_cfgs pair_name 0 2 both_gone) =
  [YM (VCall 0 (MRegister 0)); YT 0 (ECall 0 OMustStart); YT 0 (ERet 0 OMustStart Ok 0); YM (VRet 0 (MRegister 0) MOk);
   YM (VCall 1 (MRegister 1)); YT 1 (ECall 1 OMustStart); YT 1 (ERet 1 OMustStart Ok 0); YM (VRet 1 (MRegister 1) MOk);
   YT 0 (ELog 1 0); YT 0 (EBegin 1 0); YM (VCall 0 (MUnregister "a")); YT 0 (ECall 0 OStop); YM (VCall 1 MUnregisterAll);
   YT 0 (ERet 0 OStop Ok 10); YM (VRet 0 (MUnregister "a") MOk); YT 1 (ECall 1 OStop); YT 1 (ERet 1 OStop Ok 10); YM (VRet 1 MUnregisterAll MOk);
   YT 1 (ELog 1 10); YT 1 (ELog 2 10); YT 1 (EBegin 1 10); YT 1 (EBegin 2 10)].
Proof. vm_compute. reflexivity. Qed.

(** The hypotheses of the theorems above, in this case. *)
Example managed_case : let tr := snd (yexec pair_cfgs pair_name 0 2 both_gone) in
  (exists a b, tr = a ++ YM (VRet 0 (MUnregister "a") MOk) :: b /\ registered pair_name (of_manager a) "a" = Some 0%nat) /\
  (exists a b, tr = a ++ YM (VRet 1 MUnregisterAll MOk) :: b /\ registered pair_name (of_manager a) "b" = Some 1%nat /\ count is_begin (of_task 1 b) = 2) /\
  (let tr := snd (yexec pair_cfgs pair_name 0 2 (both_registered ++ first_begun)) in
   0 < c_interval (pair_cfgs 0) /\ registered pair_name (of_manager tr) "a" = Some 0%nat /\ was_stopped 0 (of_manager tr) = false /\ begun (of_task 0 tr) = [1]) /\
  calling 0 (of_manager (snd (yexec pair_cfgs pair_name 0 2 both_unregistered))) = Some (MUnregister "a") /\
  calling 1 (of_manager (snd (yexec pair_cfgs pair_name 0 2 both_unregistered))) = Some MUnregisterAll.
Proof.
  split; [|split; [|split; [|split; vm_compute; reflexivity]]].
  - exists (firstn 14 (snd (yexec pair_cfgs pair_name 0 2 both_gone))), (skipn 15 (snd (yexec pair_cfgs pair_name 0 2 both_gone))). split; vm_compute; reflexivity.
  - exists (firstn 17 (snd (yexec pair_cfgs pair_name 0 2 both_gone))), (skipn 18 (snd (yexec pair_cfgs pair_name 0 2 both_gone))). split; [|split]; vm_compute; reflexivity.
  - repeat split; vm_compute; reflexivity.
Qed.

(** ** What does not hold *)
(** Unregister does not wait for the runs of the task: one can begin after it has returned. *)
Theorem unregistered_is_quiet_refuted : exists sched a b,
  snd (yexec pair_cfgs pair_name 0 2 sched) = a ++ YM (VRet 0 (MUnregister "a") MOk) :: b /\ registered pair_name (of_manager a) "a" = Some 0%nat /\ count is_begin (of_task 0 b) = 1.
Proof.
  exists (both_registered ++ [YTask 0 (LCons 0); YCall 0 (MUnregister "a"); YStep 0 0; YTask 0 (LClient 0); YTask 0 (LCons 0); YTask 0 (LRun 0); YTask 0 (LJobBegin 0)]),
    [YM (VCall 0 (MRegister 0)); YT 0 (ECall 0 OMustStart); YT 0 (ERet 0 OMustStart Ok 0); YM (VRet 0 (MRegister 0) MOk);
     YM (VCall 1 (MRegister 1)); YT 1 (ECall 1 OMustStart); YT 1 (ERet 1 OMustStart Ok 0); YM (VRet 1 (MRegister 1) MOk);
     YM (VCall 0 (MUnregister "a")); YT 0 (ECall 0 OStop); YT 0 (ERet 0 OStop Ok 0)], [YT 0 (ELog 1 0); YT 0 (EBegin 1 0)].
  split; [|split]; vm_compute; reflexivity.
Qed.
Print Assumptions unregistered_is_quiet_refuted.

(** So a name does not serve as a lock: after Unregister, a task of the same name can be registered and run
    while a run of the old one goes on. *)
Theorem one_run_per_name_refuted : exists sched, let tr := snd (yexec pair_cfgs pair_name 0 2 sched) in
  pair_name 0 = pair_name 2 /\ registered pair_name (of_manager tr) "a" = Some 2%nat /\
  begun (of_task 0 tr) = [1] /\ count is_end (of_task 0 tr) = 0 /\ begun (of_task 2 tr) = [1] /\ count is_end (of_task 2 tr) = 0.
Proof.
  exists (both_registered ++ first_begun ++ [YCall 0 (MUnregister "a"); YStep 0 0; YTask 0 (LClient 0)] ++ register_steps 0 2 ++
    [YTask 2 (LCons 0); YTask 2 (LCons 0); YTask 2 (LRun 0); YTask 2 (LJobBegin 0)]).
  repeat split; vm_compute; reflexivity.
Qed.
Print Assumptions one_run_per_name_refuted.
