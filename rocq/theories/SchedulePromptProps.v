(** C115: the runs of a task are on time if goroutines are. *)
From Verif Require Import Common Threads ScheduleModel ScheduleSpec SchedulePromptSpec SchedulePromptProofs.
Local Open Scope list_scope.
Local Open Scope Z_scope.

(** Fixed delay: if the runtime catches up with what it owes at least every [lag], the first run begins
    within [lag] of Start's return, and every further one between the interval and the interval plus twice
    [lag] after the job function has returned (or that time is not over yet). *)
Theorem delay_runs_on_time : forall c lag t0 n pieces, c_kind c = Delay -> 0 <= lag -> 0 <= c_interval c ->
  keeps_up c lag (init t0 n) pieces ->
  let s := fst (texec c t0 n (concat pieces)) in let tr := snd (texec c t0 n (concat pieces)) in
  existsb stop_ok tr = false ->
  (forall i o ts, In (ERet i o Ok ts) tr -> starts o = true -> exists t, In (EBegin 1 t) tr /\ t <= ts + lag) /\
  (forall m t', In (EEnd m t') tr ->
    (exists t, In (EBegin (m + 1) t) tr /\ t' + c_interval c <= t <= t' + c_interval c + 2 * lag) \/ t_now s < t' + c_interval c + lag).
Proof. exact delay_on_time. Qed.
Print Assumptions delay_runs_on_time.

(** Fixed rate: if it catches up at least once in every interval, no run is lost or late, however long the
    jobs take: run m begins between (m - 1) intervals after Start's return and [lag] later, and by now there
    is one run per interval and the first. *)
Theorem rate_runs_on_time : forall c lag t0 n pieces i o ts, c_kind c = Rate -> 0 < c_interval c -> lag <= c_interval c ->
  keeps_up c lag (init t0 n) pieces ->
  let s := fst (texec c t0 n (concat pieces)) in let tr := snd (texec c t0 n (concat pieces)) in
  existsb stop_ok tr = false -> In (ERet i o Ok ts) tr -> starts o = true ->
  count is_begin tr = 1 + (t_now s - ts) / c_interval c /\
  forall m t, In (EBegin m t) tr -> ts + (m - 1) * c_interval c <= t <= ts + (m - 1) * c_interval c + lag.
Proof. exact rate_on_time. Qed.
Print Assumptions rate_runs_on_time.

Ltac up := apply up_checked; vm_compute; reflexivity.

Definition prompt_delay : cfg := Cfg Delay 10 5.
(** The first job runs from 0 to 3, the second begins at 13. *)
Definition delay_pieces : list (list label) :=
  [[LCall 0 OStart; LClient 0; LClientSend 0 0; LCons 0; LCons 0; LRun 0; LJobBegin 0]; [LTime 2];
   [LTime 1; LJobEnd 0; LRun 0; LCons 0; LTimer 0]; [LTime 2]; [LTime 2]; [LTime 2]; [LTime 2];
   [LTime 2; LTimer 0; LTimerSend 0 0; LCons 0; LCons 0; LRun 1; LJobBegin 1]].

Example delay_on_time_case : keeps_up prompt_delay 2 (init 0 1) delay_pieces /\
  existsb stop_ok (snd (texec prompt_delay 0 1 (concat delay_pieces))) = false /\
  In (ERet 0 OStart Ok 0) (snd (texec prompt_delay 0 1 (concat delay_pieces))) /\
  In (EEnd 1 3) (snd (texec prompt_delay 0 1 (concat delay_pieces))) /\
  In (EBegin 2 13) (snd (texec prompt_delay 0 1 (concat delay_pieces))).
Proof.
  split.
  - cbn [keeps_up delay_pieces]. repeat (split; [vm_compute; discriminate|]; split; [up|]). exact I.
  - vm_compute. tauto.
Qed.

Definition prompt_rate : cfg := Cfg Rate 10 50.
(** Runs at 0, at 10 (begun at 14) and at 20 (begun at 21), none of which has ended. *)
Definition rate_pieces : list (list label) :=
  [[LCall 0 OStart; LClient 0; LProvSend 0 0; LCons 0; LCons 0; LRun 0; LJobBegin 0]; [LTime 7];
   [LTime 4; LTicker; LTime 3; LProvTick 0; LProvSend 0 0; LCons 0; LCons 0; LRun 1; LJobBegin 1];
   [LTime 7; LTicker; LProvTick 0; LProvSend 0 0; LCons 0; LCons 0; LRun 2; LJobBegin 2]].

Example rate_on_time_case : keeps_up prompt_rate 7 (init 0 1) rate_pieces /\
  existsb stop_ok (snd (texec prompt_rate 0 1 (concat rate_pieces))) = false /\
  In (ERet 0 OStart Ok 0) (snd (texec prompt_rate 0 1 (concat rate_pieces))) /\
  t_now (fst (texec prompt_rate 0 1 (concat rate_pieces))) = 21 /\
  count is_begin (snd (texec prompt_rate 0 1 (concat rate_pieces))) = 3 /\
  In (EBegin 2 14) (snd (texec prompt_rate 0 1 (concat rate_pieces))).
Proof.
  split.
  - cbn [keeps_up rate_pieces]. repeat (split; [vm_compute; discriminate|]; split; [up|]). exact I.
  - vm_compute. tauto.
Qed.

(** The smallest unit of time more than an interval without catching up, and a run is lost: two ticks of
    the ticker become one. *)
Theorem rate_runs_on_time_refuted : exists pieces, keeps_up prompt_rate (c_interval prompt_rate + 1) (init 0 1) pieces /\
  let s := fst (texec prompt_rate 0 1 (concat pieces)) in let tr := snd (texec prompt_rate 0 1 (concat pieces)) in
  existsb stop_ok tr = false /\ In (ERet 0 OStart Ok 0) tr /\ 1 + (t_now s - 0) / c_interval prompt_rate = 3 /\ count is_begin tr = 2.
Proof.
  exists [[LCall 0 OStart; LClient 0; LProvSend 0 0; LCons 0; LCons 0; LRun 0; LJobBegin 0]; [LTime 9];
   [LTime 11; LTicker; LProvTick 0; LProvSend 0 0; LCons 0; LCons 0; LRun 1; LJobBegin 1]].
  split.
  - cbn [keeps_up]. repeat (split; [vm_compute; discriminate|]; split; [up|]). exact I.
  - vm_compute. tauto.
Qed.
Print Assumptions rate_runs_on_time_refuted.
