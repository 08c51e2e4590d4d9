(** Theorems about the tasks at the level of single accesses (C118).  [c] is any task configuration, [t0] the time the
    task was made, [n] the number of goroutines calling it, [sched] any interleaving of everything. *)
From Verif Require Import Common Threads ScheduleModel ScheduleSpec ScheduleProofs ScheduleFineModel ScheduleFineSpec ScheduleFineProofs ScheduleFineTrace ScheduleFineUse.
From Coq Require Import Sorting.Sorted.
Local Open Scope list_scope.
Local Open Scope Z_scope.

(** Whatever is seen could also be seen if every Start and every Stop did all it does at one instant between its call
    and its return: the calls then give the results, and everything else happens, as in ScheduleModel.v. *)
Theorem task_linearizable : forall c t0 n sched, exists tr sched',
  seen tr = snd (ftexec c t0 n sched) /\ effects tr = snd (texec c t0 n sched') /\ linear tr.
Proof. exact fine_linear. Qed.
Print Assumptions task_linearizable.

(** Never are two goroutines about to access the same field with one of them writing it. *)
Theorem task_no_races : forall c t0 n sched, ~ race (fst (ftexec c t0 n sched)).
Proof. exact no_races. Qed.
Print Assumptions task_no_races.

(** Whoever holds the lock can release it in at most seven steps of its own, without anybody else doing anything but
    the consumer taking the first run from Start. *)
Theorem task_lock_comes_free : forall c t0 n sched o, let s := fst (ftexec c t0 n sched) in f_lock s = Some o ->
  exists ls, (length ls <= 7)%nat /\ Forall (step_of o) ls /\ f_lock (fst (exec (fstep c) s ls)) = None.
Proof. exact lock_frees. Qed.
Print Assumptions task_lock_comes_free.

(** At most one Start and at most one Stop return success. *)
Theorem task_returns_once : forall c t0 n sched,
  count start_ok (events (snd (ftexec c t0 n sched))) <= 1 /\ count stop_ok (events (snd (ftexec c t0 n sched))) <= 1.
Proof. exact fine_once. Qed.
Print Assumptions task_returns_once.

(** The runs of a fixed-delay task: numbered 1, 2, ..., none beginning before Start was called or before the interval
    is over since the end of the one before, no two at a time. *)
Theorem delay_begins_in_turn : forall c t0 n sched a t' m t b, c_kind c = Delay -> snd (ftexec c t0 n sched) = a ++ (t', EBegin m t) :: b ->
  m = count is_begin (events a) + 1 /\ count is_end (events a) = count is_begin (events a) /\
  (exists tc i o, In (tc, ECall i o) a /\ starts o = true /\ tc <= t') /\
  (m <> 1 -> exists t1, In (EEnd (m - 1) t1) (events a) /\ t1 + c_interval c <= t).
Proof. exact fine_delay_begin. Qed.
Print Assumptions delay_begins_in_turn.

Theorem delay_ends_in_turn : forall c t0 n sched a t' m t b, c_kind c = Delay -> snd (ftexec c t0 n sched) = a ++ (t', EEnd m t) :: b ->
  m = count is_begin (events a) /\ count is_end (events a) = m - 1.
Proof. exact fine_delay_end. Qed.
Print Assumptions delay_ends_in_turn.

Theorem delay_one_run_once_stopped : forall c t0 n sched a t i o t' b, c_kind c = Delay ->
  snd (ftexec c t0 n sched) = a ++ (t, ERet i o Ok t') :: b -> starts o = false -> count is_begin (events b) <= 1.
Proof. exact fine_after_stop. Qed.
Print Assumptions delay_one_run_once_stopped.

(** Of both kinds of tasks: a run's channel is closed only if the job has returned, Stop has been called, or the
    timeout is over; a run is left only when its job has returned; no number is given twice. *)
Theorem task_cancelled_for_cause : forall c t0 n sched a t' m t b, snd (ftexec c t0 n sched) = a ++ (t', ECancel m t) :: b ->
  (exists t1, In (EEnd m t1) (events a)) \/ (exists tc i o, In (tc, ECall i o) a /\ starts o = false) \/
  exists t1, In (ELog m t1) (events a) /\ t1 + c_timeout c <= t.
Proof. exact fine_cancel. Qed.
Print Assumptions task_cancelled_for_cause.

Theorem task_waits_for_job : forall c t0 n sched a t' m t b, snd (ftexec c t0 n sched) = a ++ (t', ENext m t) :: b ->
  exists t1, In (EEnd m t1) (events a).
Proof. exact fine_next. Qed.
Print Assumptions task_waits_for_job.

Theorem task_gives_number_once : forall c t0 n sched, NoDup (begun (events (snd (ftexec c t0 n sched)))).
Proof. exact fine_numbers. Qed.
Print Assumptions task_gives_number_once.

(** The runs of a fixed-rate task: the m-th not before m - 1 intervals are over since the call of Start; nor do more
    begin, also after Stop, than intervals were over when Stop returned. *)
Theorem rate_begins_in_time : forall c t0 n sched a t' m t b, c_kind c = Rate -> 0 < c_interval c ->
  snd (ftexec c t0 n sched) = a ++ (t', EBegin m t) :: b ->
  exists tc i o, In (tc, ECall i o) a /\ starts o = true /\ 1 <= m /\ tc + (m - 1) * c_interval c <= t /\
    tc + count is_begin (events a) * c_interval c <= t.
Proof. exact fine_rate_begin. Qed.
Print Assumptions rate_begins_in_time.

Theorem rate_due_when_stopped : forall c t0 n sched a t i o t' b, c_kind c = Rate -> 0 < c_interval c ->
  snd (ftexec c t0 n sched) = a ++ (t, ERet i o Ok t') :: b -> starts o = false ->
  exists tc j q, In (tc, ECall j q) a /\ starts q = true /\ tc + (count is_begin (events (a ++ b)) - 1) * c_interval c <= t.
Proof. exact fine_rate_stop. Qed.
Print Assumptions rate_due_when_stopped.

(** ** Cases *)
Definition fine_delay : cfg := Cfg Delay 10 5.
Definition fine_rate : cfg := Cfg Rate 10 5.
(** Start of a fixed-delay task with a second Start and a Stop waiting for the lock; time passes while it is held. *)
Definition delay_steps : list label :=
  [LCall 0 OStart; LCall 1 OMustStart; LClient 0; LClient 1; LClient 0; LClient 0; LTime 1; LClient 0; LClient 0; LCall 2 OStop; LClientSend 0 0;
   LCons 0; LClient 0; LCons 0; LClient 1; LCons 0; LCons 0; LClient 1; LClient 1; LTime 1; LClient 1; LClient 0; LClient 1;
   LCons 0; LCons 0; LCons 0; LCons 0; LCons 0; LRun 0; LJobBegin 0; LTime 1; LJobEnd 0; LRun 0; LCons 0; LTimer 0;
   LTime 10; LTimer 0; LTimerSend 0 0; LCons 0; LCons 0; LCons 0; LCons 0; LClient 2; LCons 0; LCons 0; LCons 0; LCons 0; LRun 1; LClient 2;
   LClient 2; LClient 2; LClient 2; LClient 2; LClient 2; LClient 2; LJobBegin 1; LRunStop 1].
Example delay_steps_trace : snd (ftexec fine_delay 0 3 delay_steps) =
  [(0, ECall 0 OStart); (0, ECall 1 OMustStart); (1, ECall 2 OStop); (2, ERet 0 OStart Ok 2); (2, ERet 1 OMustStart (Panic StartedTwice) 2);
   (2, ELog 1 2); (2, EBegin 1 2); (3, EEnd 1 3); (3, ECancel 1 3); (3, ENext 1 3); (13, ELog 2 13); (13, ERet 2 OStop Ok 13); (13, EBegin 2 13); (13, ECancel 2 13)].
Proof. vm_compute. reflexivity. Qed.

(** The same as a history in which every call takes effect at an instant; it is linear, and not every history is: *)
Example task_linear_case : exists tr, seen tr = firstn 5 (snd (ftexec fine_delay 0 3 delay_steps)) /\ linear tr /\
  ~ linear [(0, Both (ECall 0 OStart)); (0, Seen (ERet 0 OStart Ok 0))] /\
  ~ linear [(0, Both (ECall 0 OStart)); (0, Takes (ERet 0 OStart Ok 0)); (0, Seen (ERet 0 OStart (Err StartedTwice) 0))].
Proof.
  exists [(0, Both (ECall 0 OStart)); (0, Both (ECall 1 OMustStart)); (1, Both (ECall 2 OStop)); (1, Takes (ERet 0 OStart Ok 1));
    (1, Takes (ERet 1 OMustStart (Panic StartedTwice) 1)); (2, Seen (ERet 0 OStart Ok 2)); (2, Seen (ERet 1 OMustStart (Panic StartedTwice) 2))].
  split; [vm_compute; reflexivity|]. split; [|split].
  - split; [|split].
    + repeat (constructor; [|repeat (constructor; cbn; try lia)]). constructor.
    + intros i. destruct i as [|[|[|i]]]; cbn.
      * exists Idle. apply (calls_returns 0 [_; _] 2 OStart Ok). apply (calls_takes 0 [_] 1 OStart Ok). apply (calls_call 0 [] 0 OStart). constructor.
      * exists Idle. apply (calls_returns 1 [_; _] 2 OMustStart (Panic StartedTwice)). apply (calls_takes 1 [_] 1 OMustStart). apply (calls_call 1 [] 0 OMustStart). constructor.
      * exists (Called OStop). apply (calls_call 2 [] 1 OStop). constructor.
      * exists Idle. constructor.
    + repeat constructor.
  - intros (_ & C & _). destruct (C 0%nat) as (st & K). cbn in K.
    change ([(0, Both (ECall 0 OStart)); (0, Seen (ERet 0 OStart Ok 0))]) with ([(0, Both (ECall 0 OStart))] ++ [(0, Seen (ERet 0 OStart Ok 0))]) in K.
    destruct (calls_seen _ _ _ _ _ _ _ _ K eq_refl) as (ts & [I|[]]). discriminate.
  - intros (_ & C & _). destruct (C 0%nat) as (st & K). cbn in K.
    destruct (calls_seen _ _ _ 0 OStart (Err StartedTwice) 0 [(0, Both (ECall 0 OStart)); (0, Takes (ERet 0 OStart Ok 0))] K eq_refl) as (ts & [I|[I|[]]]); discriminate.
Qed.

(** In the middle of Start, client 0 about to write the status, the others waiting; and states with a race. *)
Example task_race_case : let s := fst (ftexec fine_delay 0 3 (firstn 6 delay_steps)) in
  f_lock s = Some (Client 0) /\ about_to s (Caller 0) = Some (Status, true) /\ about_to s (Caller 1) = None /\
  race (FTask (f_task s) (f_lock s) [Some FMark; Some FStarted; None] []) /\
  race (FTask (set_provs [PTick] (f_task s)) (f_lock s) [Some FTicker; None; None] []).
Proof.
  cbv zeta. split; [vm_compute; reflexivity|]. split; [vm_compute; reflexivity|]. split; [vm_compute; reflexivity|]. split.
  - exists (Caller 0), (Caller 1), Status, true, false. repeat split; auto. discriminate.
  - exists (Caller 0), (Providing 0), Ticker, true, false. repeat split; auto. discriminate.
Qed.
(** From there the lock comes free in four steps, the consumer taking the first run. *)
Example task_lock_case : f_lock (fst (ftexec fine_delay 0 3 (firstn 6 delay_steps ++ [LClient 0; LClient 0; LClientSend 0 0; LClient 0]))) = None /\
  Forall (step_of (Client 0)) [LClient 0; LClient 0; LClientSend 0 0; LClient 0].
Proof. split; [vm_compute; reflexivity|repeat constructor]. Qed.

Example delay_turn_case : c_kind fine_delay = Delay /\ (exists a b, snd (ftexec fine_delay 0 3 delay_steps) = a ++ (13, EBegin 2 13) :: b) /\
  (exists a b, snd (ftexec fine_delay 0 3 delay_steps) = a ++ (3, EEnd 1 3) :: b) /\
  (exists a b, snd (ftexec fine_delay 0 3 delay_steps) = a ++ (13, ERet 2 OStop Ok 13) :: b /\ count is_begin (events b) = 1) /\
  (exists a b, snd (ftexec fine_delay 0 3 delay_steps) = a ++ (13, ECancel 2 13) :: b) /\
  (exists a b, snd (ftexec fine_delay 0 3 delay_steps) = a ++ (3, ENext 1 3) :: b) /\
  begun (events (snd (ftexec fine_delay 0 3 delay_steps))) = [1; 2].
Proof.
  rewrite delay_steps_trace. repeat split.
  - exists (firstn 12 (snd (ftexec fine_delay 0 3 delay_steps))), [(13, ECancel 2 13)]. vm_compute. reflexivity.
  - exists (firstn 7 (snd (ftexec fine_delay 0 3 delay_steps))), (skipn 8 (snd (ftexec fine_delay 0 3 delay_steps))). vm_compute. reflexivity.
  - exists (firstn 11 (snd (ftexec fine_delay 0 3 delay_steps))), (skipn 12 (snd (ftexec fine_delay 0 3 delay_steps))). vm_compute. auto.
  - exists (firstn 13 (snd (ftexec fine_delay 0 3 delay_steps))), []. vm_compute. reflexivity.
  - exists (firstn 9 (snd (ftexec fine_delay 0 3 delay_steps))), (skipn 10 (snd (ftexec fine_delay 0 3 delay_steps))). vm_compute. reflexivity.
Qed.

(** A fixed-rate task: Start has made the ticker, started the goroutines and released the lock; before it returns, two
    runs begin; then Stop. *)
Definition rate_steps : list label :=
  [LCall 0 OStart; LClient 0; LClient 0; LClient 0; LClient 0; LClient 0; LClient 0; LClient 0; LClient 0;
   LProvSend 0 0; LCons 0; LCons 0; LCons 0; LCons 0; LCons 0; LCons 0; LCons 0; LCons 0; LRun 0; LJobBegin 0;
   LTime 10; LTicker; LProvTick 0; LProvSend 0 0; LCons 0; LCons 0; LCons 0; LCons 0; LCons 0; LCons 0; LCons 0; LCons 0; LRun 1; LJobBegin 1;
   LTime 5; LClient 0; LCall 0 OStop; LClient 0; LClient 0; LClient 0; LClient 0; LClient 0; LClient 0; LClient 0; LClient 0].
Example rate_steps_trace : snd (ftexec fine_rate 0 1 rate_steps) =
  [(0, ECall 0 OStart); (0, ELog 1 0); (0, EBegin 1 0); (10, ELog 2 10); (10, EBegin 2 10); (15, ERet 0 OStart Ok 15); (15, ECall 0 OStop); (15, ERet 0 OStop Ok 15)].
Proof. vm_compute. reflexivity. Qed.

Example rate_time_case : c_kind fine_rate = Rate /\ 0 < c_interval fine_rate /\
  (exists a b, snd (ftexec fine_rate 0 1 rate_steps) = a ++ (10, EBegin 2 10) :: b) /\
  (exists a b, snd (ftexec fine_rate 0 1 rate_steps) = a ++ (15, ERet 0 OStop Ok 15) :: b /\ count is_begin (events (a ++ b)) = 2).
Proof.
  rewrite rate_steps_trace. repeat split.
  - exists (firstn 4 (snd (ftexec fine_rate 0 1 rate_steps))), (skipn 5 (snd (ftexec fine_rate 0 1 rate_steps))). vm_compute. reflexivity.
  - exists (firstn 7 (snd (ftexec fine_rate 0 1 rate_steps))), []. vm_compute. auto.
Qed.

(** So the bound counts from an instant of Start, not from its return: here the first two runs have begun before. *)
Theorem rate_counts_from_return_refuted : exists sched a b, snd (ftexec fine_rate 0 1 sched) = a ++ (10, EBegin 2 10) :: b /\
  existsb start_ok (events a) = false /\ In (15, ERet 0 OStart Ok 15) b.
Proof.
  exists rate_steps, (firstn 4 (snd (ftexec fine_rate 0 1 rate_steps))), (skipn 5 (snd (ftexec fine_rate 0 1 rate_steps))).
  split; [vm_compute; reflexivity|]. split; [vm_compute; reflexivity|]. vm_compute. auto.
Qed.
Print Assumptions rate_counts_from_return_refuted.
