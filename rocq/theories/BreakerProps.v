(** Property theorems for the circuit breaker (C20-C24). *)
From Verif Require Import Common Threads BreakerModel BreakerSpec BreakerProofs.

(** C20.  In every interleaving, what the user code of one goroutine sees is a sequence of complete
    [Do] calls, each of one of the four shapes of [whole_do], and at most one unfinished one. *)
Theorem breaker_one_branch : forall threshold timeout t0 n sched i,
  exists dos cur, visible_of i (snd (breaker_exec threshold timeout t0 n sched)) = concat dos ++ cur /\
    Forall whole_do dos /\ (cur = [] \/ part_do cur) /\
    (nth_error (cb_threads (fst (breaker_exec threshold timeout t0 n sched))) i = Some BIdle -> cur = []).
Proof. exact breaker_branches. Qed.
Print Assumptions breaker_one_branch.

(** The branch taken is the one the breaker decided. *)
Theorem breaker_branch_follows_decision : forall threshold timeout t0 n sched,
  let tr := snd (breaker_exec threshold timeout t0 n sched) in
  (forall tr1 i tr2, tr = tr1 ++ EOnOpen i :: tr2 -> last_consult i None tr1 = Some false) /\
  (forall tr1 i tr2, tr = tr1 ++ ETask i :: tr2 -> last_consult i None tr1 = Some true).
Proof. exact breaker_decision_followed. Qed.
Print Assumptions breaker_branch_follows_decision.

(** Two goroutines, threshold 1: a failure and an overlapping success, a refusal. *)
Definition overlap : list blabel :=
  [BCall 0; BCall 1; BStep 0; BStep 0; BStep 0; BStep 1; BStep 1; BStep 1;
   BDone 1 (TaskErr 7); BClock 50; BStep 1; BStep 1;
   BCall 1; BStep 1; BStep 1; BStep 1;
   BDone 0 TaskOk; BStep 0; BCall 1; BStep 1; BStep 1; BStep 1].
Example breaker_one_branch_case :
  let '(s, tr) := breaker_exec 1 1000 40 2 overlap in
  visible_of 1 tr = [VCall; VTask; VDone (TaskErr 7); VOnError 7; VCall; VOnOpen; VCall; VTask] /\
  visible_of 0 tr = [VCall; VTask; VDone TaskOk].
Proof. vm_compute. split; reflexivity. Qed.

(** C21.  Open: refused. *)
Theorem breaker_open_refuses : forall threshold timeout t0 n sched tr1 i now r tr2,
  0 <= t0 < 2 ^ 62 -> Forall clock_ok sched -> blength_ok sched ->
  snd (breaker_exec threshold timeout t0 n sched) = tr1 ++ EConsult i now r :: tr2 ->
  threshold <= failures_since_success tr1 -> now - latest_failure tr1 <= timeout -> r = false.
Proof. exact breaker_open. Qed.
Print Assumptions breaker_open_refuses.

(** C22.  Closed or half-open: let through. *)
Theorem breaker_closed_runs : forall threshold timeout t0 n sched tr1 i now r tr2,
  0 <= t0 < 2 ^ 62 -> Forall clock_ok sched -> blength_ok sched ->
  snd (breaker_exec threshold timeout t0 n sched) = tr1 ++ EConsult i now r :: tr2 ->
  failures_since_success tr1 < threshold \/ timeout < now - latest_failure tr1 -> r = true.
Proof. exact breaker_lets_through. Qed.
Print Assumptions breaker_closed_runs.

(** A failure of a half-open breaker (or the failure that reaches the threshold) opens it for the
    whole timeout; a success closes it. *)
Theorem breaker_failure_opens : forall threshold timeout t0 n sched tr1 t tr2 i now r tr3,
  0 <= t0 < 2 ^ 62 -> Forall clock_ok sched -> blength_ok sched ->
  snd (breaker_exec threshold timeout t0 n sched) = tr1 ++ EFailure t :: tr2 ++ EConsult i now r :: tr3 ->
  threshold <= failures_since_success tr1 + 1 -> existsb is_record tr2 = false ->
  r = (timeout <? now - t).
Proof. exact breaker_failure_reopens. Qed.
Print Assumptions breaker_failure_opens.

Theorem breaker_success_closes : forall threshold timeout t0 n sched tr1 tr2 i now r tr3,
  0 <= t0 < 2 ^ 62 -> Forall clock_ok sched -> blength_ok sched ->
  snd (breaker_exec threshold timeout t0 n sched) = tr1 ++ ESuccess :: tr2 ++ EConsult i now r :: tr3 ->
  count is_failure tr2 < threshold -> r = true.
Proof. exact BreakerProofs.breaker_success_closes. Qed.
Print Assumptions breaker_success_closes.

(** A threshold of zero or less acts like one. *)
Theorem breaker_threshold_below_one : forall threshold timeout t0 n sched tr1 i now r tr2,
  0 <= t0 < 2 ^ 62 -> Forall clock_ok sched -> blength_ok sched ->
  snd (breaker_exec threshold timeout t0 n sched) = tr1 ++ EConsult i now r :: tr2 ->
  threshold <= 1 -> timeout < now ->
  (r = false <-> 1 <= failures_since_success tr1 /\ now - latest_failure tr1 <= timeout).
Proof. exact breaker_small_threshold. Qed.
Print Assumptions breaker_threshold_below_one.

(** Non-vacuous: threshold 2, timeout 100; two failures at 50, refused at 150, half-open at 151, that
    failure (at 160) re-opens, refused at 260, half-open at 261, success closes. *)
Definition cycle : list blabel :=
  one_do 10 (TaskErr 1) 50 ++ one_do 50 (TaskErr 2) 50 ++ one_do 150 TaskOk 150 ++
  one_do 151 (TaskErr 3) 160 ++ one_do 260 TaskOk 260 ++ one_do 261 TaskOk 262 ++ one_do 263 (TaskErr 4) 264 ++
  one_do 265 TaskPanic 266.
Example breaker_cycle_case :
  Forall clock_ok cycle /\
  filter (fun e => match e with EConsult _ _ _ => true | e => is_record e end)
    (snd (breaker_exec 2 100 0 1 cycle)) =
  [EConsult 0 10 true; EFailure 50; EConsult 0 50 true; EFailure 50; EConsult 0 150 false;
   EConsult 0 151 true; EFailure 160; EConsult 0 260 false; EConsult 0 261 true; ESuccess;
   EConsult 0 263 true; EFailure 264; EConsult 0 265 true].
Proof.
  split; [|vm_compute; reflexivity].
  repeat constructor; vm_compute; congruence.
Qed.

(** The stronger claim that no task starts for a full timeout after the breaker opened is false: a slow
    task that started earlier succeeds and closes the breaker, and the next call runs. *)
Theorem breaker_stays_open_refuted :
  exists threshold timeout n sched tr1 t tr2 i now tr3,
    1 <= threshold /\ Forall clock_ok sched /\ blength_ok sched /\
    snd (breaker_exec threshold timeout 0 n sched) = tr1 ++ EFailure t :: tr2 ++ EConsult i now true :: tr3 /\
    threshold <= failures_since_success (tr1 ++ [EFailure t]) /\ t <= now <= t + timeout.
Proof.
  exists 1, 1000, 2%nat, overlap.
  exists [ECall 0; ECall 1; EConsult 0 0 true; ETask 0; EConsult 1 0 true; ETask 1; EDone 1 (TaskErr 7)], 50,
    [EOnError 1 7; ECall 1; EConsult 1 50 false; EOnOpen 1; EDone 0 TaskOk; ESuccess; ECall 1],
    1%nat, 50, [ETask 1].
  split; [lia|]. split; [repeat constructor; vm_compute; congruence|].
  split; [vm_compute; reflexivity|]. split; [vm_compute; reflexivity|]. split; vm_compute; [|split]; congruence.
Qed.
Print Assumptions breaker_stays_open_refuted.

(** Half-open is not a single trial: any number of calls can be running tasks at once while half-open.
    Here two. *)
Theorem breaker_half_open_single_trial_refuted :
  exists threshold timeout n sched,
    1 <= threshold /\ Forall clock_ok sched /\
    let '(s, tr) := breaker_exec threshold timeout 0 n sched in
    threshold <= failures_since_success tr /\ timeout < cb_clock s - latest_failure tr /\ running s = 2.
Proof.
  exists 1, 10, 2%nat, (one_do 0 (TaskErr 1) 5 ++ [BClock 16; BCall 0; BCall 1; BStep 0; BStep 1; BStep 0; BStep 1; BStep 0; BStep 1]).
  split; [lia|]. split; [repeat constructor; vm_compute; congruence|].
  vm_compute. repeat split; congruence.
Qed.
Print Assumptions breaker_half_open_single_trial_refuted.

(** C23.  Sequential use is the documented three-state machine. *)
Theorem breaker_refines_machine : forall threshold timeout t0 calls,
  1 <= threshold -> times_ok calls -> Z.of_nat (length calls) < 2 ^ 62 ->
  seq_visible (new_breaker threshold timeout t0 1) calls =
  map result_visible (machine_run threshold timeout (MClosed 0) calls).
Proof. exact breaker_sequential. Qed.
Print Assumptions breaker_refines_machine.

Example breaker_refines_machine_case :
  machine_run 2 100 (MClosed 0)
    [(10, TaskErr 1, 50); (50, TaskErr 2, 50); (150, TaskOk, 150); (151, TaskErr 3, 160);
     (260, TaskOk, 260); (261, TaskOk, 262); (263, TaskErr 4, 264)] =
  [RRan (TaskErr 1); RRan (TaskErr 2); RRefused; RRan (TaskErr 3); RRefused; RRan TaskOk; RRan (TaskErr 4)].
Proof. vm_compute. reflexivity. Qed.

(** C24 *)
Theorem never_open_runs : forall o, never_open_whole o (never_open_do o).
Proof. intros [|e|]; exact eq_refl. Qed.
Print Assumptions never_open_runs.
