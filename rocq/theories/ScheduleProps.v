(** Theorems about fixed-delay and fixed-rate tasks (C56-C60).  [c] is any task configuration, [t0] the time
    the task was made, [n] the number of goroutines calling it, [sched] any interleaving of everything. *)
From Verif Require Import Common Threads ScheduleModel ScheduleSpec ScheduleProofs ScheduleTrace ScheduleRuns ScheduleLive.
Local Open Scope list_scope.
Local Open Scope Z_scope.

(** The constructors accept exactly a non-blank name, a positive timeout, a positive interval and a job. *)
Theorem task_constructor : forall k blank job interval timeout c,
  new_task k blank job interval timeout = Some c <->
  blank = false /\ job = true /\ 0 < interval /\ 0 < timeout /\ c = Cfg k interval timeout.
Proof.
  intros k blank job interval timeout c. unfold new_task. destruct blank; [split; [discriminate|intros (H & _); discriminate]|].
  destruct (timeout <=? 0) eqn:E1; [split; [discriminate|intros (_ & _ & _ & H & _); lia]|].
  destruct (interval <=? 0) eqn:E2; [split; [discriminate|intros (_ & _ & H & _); lia]|].
  destruct job; cbn [negb]; (split; [intros H|intros (_ & H & _ & _ & ->)]); try discriminate; [|reflexivity].
  injection H as <-. split; [reflexivity|]. split; [reflexivity|]. split; [lia|]. split; [lia|reflexivity].
Qed.
Print Assumptions task_constructor.

(** Cases used below: a fixed-delay task (interval 10, timeout 5) with a first run from 0 to 3 and a second
    one begun at 13; and a fixed-rate task whose first two runs have been triggered but not begun. *)
Definition delay_cfg : cfg := Cfg Delay 10 5.
Definition rate_cfg : cfg := Cfg Rate 10 5.
Definition delay_demo : list label :=
  [LCall 0 OStart; LClient 0; LClientSend 0 0; LCons 0; LCons 0; LRun 0; LJobBegin 0; LTime 3; LJobEnd 0; LRun 0; LCons 0; LTimer 0;
   LTime 10; LTimer 0; LTimerSend 0 0; LCons 0; LCons 0; LRun 1; LJobBegin 1].
Definition rate_demo : list label :=
  [LCall 0 OStart; LClient 0; LProvSend 0 0; LCons 0; LCons 0; LTime 10; LTicker; LProvTick 0; LProvSend 0 0; LCons 0; LCons 0].

Example delay_demo_trace : snd (texec delay_cfg 0 1 delay_demo) =
  [ECall 0 OStart; ERet 0 OStart Ok 0; ELog 1 0; EBegin 1 0; EEnd 1 3; ECancel 1 3; ENext 1 3; ELog 2 13; EBegin 2 13].
Proof. vm_compute. reflexivity. Qed.

(** ** C56: lifecycle *)

(** Every call of Start, MustStart, Stop and MustStop by any goroutine, returning after the events [a],
    has the result that the calls returned so far prescribe ([due] in ScheduleSpec.v). *)
Theorem task_lifecycle : forall c t0 n sched a i o r t b,
  snd (texec c t0 n sched) = a ++ ERet i o r t :: b -> r = due a o.
Proof. exact lifecycle. Qed.
Print Assumptions task_lifecycle.

(** So at most one Start and one Stop ever succeed. *)
Theorem task_starts_once : forall c t0 n sched,
  count start_ok (snd (texec c t0 n sched)) <= 1 /\ count stop_ok (snd (texec c t0 n sched)) <= 1.
Proof. exact start_once. Qed.
Print Assumptions task_starts_once.

(** Every call can return without the job function doing anything, time passing or further calls. *)
Theorem task_calls_return : forall c t0 n sched i o, pending i (snd (texec c t0 n sched)) = Some o ->
  exists sched' r t, Forall (fun l => without_job l = true) sched' /\
    In (ERet i o r t) (snd (exec (tstep c) (fst (texec c t0 n sched)) sched')).
Proof. exact calls_return. Qed.
Print Assumptions task_calls_return.

Example task_lifecycle_case : snd (texec delay_cfg 0 2
  [LCall 0 OStop; LClient 0; LCall 0 OStart; LCall 1 OMustStart; LClient 0; LClientSend 0 0; LClient 1; LCall 0 OStop; LClient 0; LCall 0 OMustStop; LClient 0;
   LCall 1 OStart; LClient 1]) =
  [ECall 0 OStop; ERet 0 OStop (Err NotStarted) 0; ECall 0 OStart; ECall 1 OMustStart; ERet 0 OStart Ok 0; ERet 1 OMustStart (Panic StartedTwice) 0;
   ECall 0 OStop; ERet 0 OStop Ok 0; ECall 0 OMustStop; ERet 0 OMustStop (Panic StoppedTwice) 0; ECall 1 OStart; ERet 1 OStart (Err StartedStopped) 0].
Proof. vm_compute. reflexivity. Qed.

(** A Stop waiting for the lock held by a Start that is still handing over the first run. *)
Example task_calls_return_case :
  pending 1 (snd (texec delay_cfg 0 2 [LCall 0 OStart; LClient 0; LCall 1 OStop; LClient 1])) = Some OStop.
Proof. vm_compute. reflexivity. Qed.

(** ** C57: fixed delay *)

(** When a run begins, Start has succeeded, its number follows that of the last run begun, all earlier
    runs have ended, and the last one at least the interval ago. *)
Theorem delay_run_begins : forall c t0 n sched a m t b,
  c_kind c = Delay -> snd (texec c t0 n sched) = a ++ EBegin m t :: b ->
  m = count is_begin a + 1 /\ count is_end a = count is_begin a /\ existsb start_ok a = true /\
  (m <> 1 -> exists t', In (EEnd (m - 1) t') a /\ t' + c_interval c <= t).
Proof. exact delay_begin. Qed.
Print Assumptions delay_run_begins.

(** When a run ends, it is the last one begun, and all others have ended. *)
Theorem delay_run_ends : forall c t0 n sched a m t b,
  c_kind c = Delay -> snd (texec c t0 n sched) = a ++ EEnd m t :: b ->
  m = count is_begin a /\ count is_end a = m - 1.
Proof. exact delay_end. Qed.
Print Assumptions delay_run_ends.

(** Started and not stopped, any task of either kind can begin a further run within the interval, from
    whatever state (a fixed-delay task once the job has returned). *)
Theorem task_keeps_running : forall c t0 n sched, 0 < c_interval c -> let tr := snd (texec c t0 n sched) in
  existsb start_ok tr = true -> existsb stop_ok tr = false ->
  exists sched' m t, Forall (fun l => no_calls l = true) sched' /\ elapsed sched' <= c_interval c /\ ~ In m (begun tr) /\
    In (EBegin m t) (snd (exec (tstep c) (fst (texec c t0 n sched)) sched')).
Proof. exact keeps_going. Qed.
Print Assumptions task_keeps_running.

Example delay_run_case : c_kind delay_cfg = Delay /\ (exists a b, snd (texec delay_cfg 0 1 delay_demo) = a ++ EBegin 2 13 :: b) /\
  (exists a b, snd (texec delay_cfg 0 1 delay_demo) = a ++ EEnd 1 3 :: b) /\ 0 < c_interval delay_cfg /\
  existsb start_ok (snd (texec delay_cfg 0 1 delay_demo)) = true /\ existsb stop_ok (snd (texec delay_cfg 0 1 delay_demo)) = false.
Proof.
  rewrite delay_demo_trace. split; [reflexivity|]. split; [|split; [|split; [reflexivity|split; reflexivity]]].
  - exists [ECall 0 OStart; ERet 0 OStart Ok 0; ELog 1 0; EBegin 1 0; EEnd 1 3; ECancel 1 3; ENext 1 3; ELog 2 13], []. reflexivity.
  - exists [ECall 0 OStart; ERet 0 OStart Ok 0; ELog 1 0; EBegin 1 0], [ECancel 1 3; ENext 1 3; ELog 2 13; EBegin 2 13]. reflexivity.
Qed.

(** ** C58: after Stop *)

(** After Stop has returned at most one further run of a fixed-delay task begins. *)
Theorem delay_one_run_after_stop : forall c t0 n sched a i o t b,
  c_kind c = Delay -> snd (texec c t0 n sched) = a ++ ERet i o Ok t :: b -> starts o = false -> count is_begin b <= 1.
Proof. exact delay_after_stop. Qed.
Print Assumptions delay_one_run_after_stop.

(** One can: a stopped task is not yet quiet. *)
Theorem delay_no_run_after_stop_refuted : exists sched a t b,
  snd (texec delay_cfg 0 1 sched) = a ++ ERet 0 OStop Ok t :: b /\ In (EBegin 1 t) b.
Proof.
  exists [LCall 0 OStart; LClient 0; LClientSend 0 0; LCons 0; LCall 0 OStop; LClient 0; LCons 0; LRun 0; LJobBegin 0],
    [ECall 0 OStart; ERet 0 OStart Ok 0; ECall 0 OStop], 0, [ELog 1 0; EBegin 1 0].
  split; [vm_compute; reflexivity|right; left; reflexivity].
Qed.
Print Assumptions delay_no_run_after_stop_refuted.

(** The task ends, of either kind: after Stop there is a bound on the number of steps its goroutines, the
    jobs and the calls can still take, and when none of them can take a step all have returned (except
    timers set for later). *)
Theorem task_ends : forall c t0 n sched, existsb stop_ok (snd (texec c t0 n sched)) = true ->
  exists N, forall sched', Forall (fun l => internal l = true) sched' ->
    (effective (tstep c) (fst (texec c t0 n sched)) sched' <= N)%nat /\
    ((forall l, internal l = true -> tstep c (fst (exec (tstep c) (fst (texec c t0 n sched)) sched')) l = None) ->
     finished (fst (exec (tstep c) (fst (texec c t0 n sched)) sched'))).
Proof. exact ends_after_stop. Qed.
Print Assumptions task_ends.

(** Then no job ever begins again, whatever calls and timers do. *)
Theorem task_ended_is_quiet : forall c t0 n sched sched' m t, let s := fst (texec c t0 n sched) in
  existsb stop_ok (snd (texec c t0 n sched)) = true -> finished s -> ~ In (EBegin m t) (snd (exec (tstep c) s sched')).
Proof. exact quiet_after_end. Qed.
Print Assumptions task_ended_is_quiet.

Definition ended_demo : list label :=
  delay_demo ++ [LJobEnd 1; LRun 1; LCons 0; LTimer 1; LCall 0 OStop; LClient 0; LConsStop 0].

Example task_ends_case : existsb stop_ok (snd (texec delay_cfg 0 1 ended_demo)) = true /\ finished (fst (texec delay_cfg 0 1 ended_demo)).
Proof.
  split; [vm_compute; reflexivity|].
  assert (E : fst (texec delay_cfg 0 1 ended_demo) = Task 13 2 true 2 false [CIdle] [KDone] [] None false [TDone; TArmed 23]
    [Run 1 RRet JDone 5 true; Run 2 RRet JDone 18 true]) by (vm_compute; reflexivity).
  rewrite E. unfold finished. cbn. split; [repeat constructor|]. split; [repeat constructor|]. split; [constructor|]. split.
  - constructor; [left; reflexivity|]. constructor; [|constructor]. right. exists 23. split; [reflexivity|lia].
  - repeat constructor.
Qed.

(** ** C59: cancellation *)

(** The cancel channel of a run is closed only after the job function has returned, after Stop, or when the
    timeout has elapsed since the run was started. *)
Theorem task_cancel_cause : forall c t0 n sched a m t b, snd (texec c t0 n sched) = a ++ ECancel m t :: b ->
  (exists t', In (EEnd m t') a) \/ existsb stop_ok a = true \/ exists t', In (ELog m t') a /\ t' + c_timeout c <= t.
Proof. exact cancel_cause. Qed.
Print Assumptions task_cancel_cause.

(** If Stop was called while a run is in progress, its channel can be closed at once. *)
Theorem task_stop_cancels : forall c t0 n sched m t, let tr := snd (texec c t0 n sched) in
  existsb stop_ok tr = true -> In (EBegin m t) tr -> (forall t', ~ In (EEnd m t') tr) -> (forall t', ~ In (ECancel m t') tr) ->
  exists l t', without_job l = true /\ snd (texec c t0 n (sched ++ [l])) = tr ++ [ECancel m t'].
Proof. exact cancel_on_stop. Qed.
Print Assumptions task_stop_cancels.

(** The same once the timeout has elapsed: at exactly that time, or now if it is over. *)
Theorem task_timeout_cancels : forall c t0 n sched m t, let tr := snd (texec c t0 n sched) in
  In (ELog m t) tr -> (forall t', ~ In (ECancel m t') tr) ->
  exists l, without_job l = true /\
    snd (texec c t0 n (sched ++ [LTime (Z.max 0 (t + c_timeout c - t_now (fst (texec c t0 n sched)))); l])) =
      tr ++ [ECancel m (Z.max (t + c_timeout c) (t_now (fst (texec c t0 n sched))))].
Proof. exact cancel_on_timeout. Qed.
Print Assumptions task_timeout_cancels.

(** The scheduler leaves a run only after the job function has returned. *)
Theorem task_never_abandons : forall c t0 n sched a m t b, snd (texec c t0 n sched) = a ++ ENext m t :: b ->
  exists t', In (EEnd m t') a.
Proof. exact next_after_end. Qed.
Print Assumptions task_never_abandons.

(** Stop during the second run; and the timeout of the second run. *)
Example task_cancel_case :
  snd (texec delay_cfg 0 1 (delay_demo ++ [LCall 0 OStop; LClient 0; LRunStop 1; LJobEnd 1; LRun 1])) =
    snd (texec delay_cfg 0 1 delay_demo) ++ [ECall 0 OStop; ERet 0 OStop Ok 13; ECancel 2 13; EEnd 2 13; ENext 2 13] /\
  snd (texec delay_cfg 0 1 (delay_demo ++ [LTime 5; LExpire 1; LRunDone 1; LTime 4; LRun 1; LJobEnd 1; LRun 1])) =
    snd (texec delay_cfg 0 1 delay_demo) ++ [ECancel 2 18; EEnd 2 22; ENext 2 22].
Proof. split; vm_compute; reflexivity. Qed.

(** ** C60: fixed rate *)

(** A run of a fixed-rate task, number [m], begins after Start has succeeded, at a time [ts], and not before
    [m - 1] intervals have passed; nor before as many intervals as runs have begun. *)
Theorem rate_run_begins : forall c t0 n sched a m t b,
  c_kind c = Rate -> 0 < c_interval c -> snd (texec c t0 n sched) = a ++ EBegin m t :: b ->
  exists i o ts, In (ERet i o Ok ts) a /\ starts o = true /\ 1 <= m /\ ts + (m - 1) * c_interval c <= t /\ ts + count is_begin a * c_interval c <= t.
Proof. exact rate_begin. Qed.
Print Assumptions rate_run_begins.

(** No number is given twice, to tasks of either kind. *)
Theorem task_numbers_unique : forall c t0 n sched, NoDup (begun (snd (texec c t0 n sched))).
Proof. exact runs_numbered. Qed.
Print Assumptions task_numbers_unique.

(** And none is left out: when all goroutines are through, the numbers are 1, ..., N. *)
Theorem task_numbers_complete : forall c t0 n sched, finished (fst (texec c t0 n sched)) ->
  exists N, forall m, In m (begun (snd (texec c t0 n sched))) <-> 1 <= m <= Z.of_nat N.
Proof. exact all_numbers. Qed.
Print Assumptions task_numbers_complete.

(** All runs, those begun after Stop included, were due before Stop returned. *)
Theorem rate_runs_before_stop : forall c t0 n sched a i o t b,
  c_kind c = Rate -> 0 < c_interval c -> snd (texec c t0 n sched) = a ++ ERet i o Ok t :: b -> starts o = false ->
  exists i' o' ts, In (ERet i' o' Ok ts) a /\ starts o' = true /\ ts + (count is_begin (a ++ b) - 1) * c_interval c <= t.
Proof. exact rate_after_stop. Qed.
Print Assumptions rate_runs_before_stop.

(** But more than one run can begin after Stop, they need not begin in the order of their numbers, and
    runs overlap. *)
Theorem rate_one_run_after_stop_refuted : exists sched a t b,
  snd (texec rate_cfg 0 1 sched) = a ++ ERet 0 OStop Ok t :: b /\ count is_begin b = 2.
Proof.
  exists (rate_demo ++ [LCall 0 OStop; LClient 0; LRun 0; LRun 1; LJobBegin 0; LJobBegin 1]), [ECall 0 OStart; ERet 0 OStart Ok 0; ECall 0 OStop], 10,
    [ELog 1 10; ELog 2 10; EBegin 1 10; EBegin 2 10].
  split; vm_compute; reflexivity.
Qed.
Print Assumptions rate_one_run_after_stop_refuted.

Theorem rate_runs_in_order_refuted : exists sched, begun (snd (texec rate_cfg 0 1 sched)) = [2; 1] /\ count is_end (snd (texec rate_cfg 0 1 sched)) = 0.
Proof. exists (rate_demo ++ [LRun 0; LRun 1; LJobBegin 1; LJobBegin 0]). split; vm_compute; reflexivity. Qed.
Print Assumptions rate_runs_in_order_refuted.

Example rate_run_case : c_kind rate_cfg = Rate /\ 0 < c_interval rate_cfg /\
  exists a b, snd (texec rate_cfg 0 1 (rate_demo ++ [LRun 0; LRun 1; LJobBegin 0; LJobBegin 1])) = a ++ EBegin 2 10 :: b /\ count is_begin a = 1.
Proof.
  split; [reflexivity|]. split; [reflexivity|]. exists [ECall 0 OStart; ERet 0 OStart Ok 0; ELog 1 10; ELog 2 10; EBegin 1 10], [].
  split; vm_compute; reflexivity.
Qed.
