(** Property theorems for circuit breakers called from callbacks of circuit breakers (C124). *)
From Verif Require Import Common Threads BreakerModel BreakerSpec BreakerProofs BreakerProps BreakerNestModel BreakerNestSpec BreakerNestProofs BreakerNestStacks.

(** C124.  Each breaker behaves as if it were the only one and each call of Do had a goroutine of its own: its events
    are those of an execution of [breaker_exec] (whose critical sections are single steps), no longer and with the same
    clock. *)
Theorem nested_each_breaker : forall cfg t0 n sched b threshold timeout, nth_error cfg b = Some (threshold, timeout) ->
  exists alone, (length alone <= length sched)%nat /\ (Forall nclock_ok sched -> Forall clock_ok alone) /\
    of_breaker b (snd (nest_exec cfg t0 n sched)) = snd (breaker_exec threshold timeout t0 (length sched) alone).
Proof. exact each_breaker. Qed.
Print Assumptions nested_each_breaker.

(** So an open breaker refuses, a closed or half-open one lets through, whatever callbacks call. *)
Theorem nested_open_refuses : forall cfg t0 n sched b threshold timeout tr1 i now r tr2,
  nth_error cfg b = Some (threshold, timeout) -> 0 <= t0 < 2 ^ 62 -> Forall nclock_ok sched -> nlength_ok sched ->
  of_breaker b (snd (nest_exec cfg t0 n sched)) = tr1 ++ EConsult i now r :: tr2 ->
  threshold <= failures_since_success tr1 -> now - latest_failure tr1 <= timeout -> r = false.
Proof.
  intros cfg t0 n sched b threshold timeout tr1 i now r tr2 C T F L E H1 H2. destruct (each_breaker cfg t0 n sched b _ _ C) as (fl & G1 & G2 & G3). rewrite G3 in E.
  apply (breaker_open_refuses threshold timeout t0 (length sched) fl tr1 i now r tr2 T (G2 F)); try assumption. unfold blength_ok, nlength_ok in *. lia.
Qed.
Print Assumptions nested_open_refuses.

Theorem nested_closed_runs : forall cfg t0 n sched b threshold timeout tr1 i now r tr2,
  nth_error cfg b = Some (threshold, timeout) -> 0 <= t0 < 2 ^ 62 -> Forall nclock_ok sched -> nlength_ok sched ->
  of_breaker b (snd (nest_exec cfg t0 n sched)) = tr1 ++ EConsult i now r :: tr2 ->
  failures_since_success tr1 < threshold \/ timeout < now - latest_failure tr1 -> r = true.
Proof.
  intros cfg t0 n sched b threshold timeout tr1 i now r tr2 C T F L E H1. destruct (each_breaker cfg t0 n sched b _ _ C) as (fl & G1 & G2 & G3). rewrite G3 in E.
  apply (breaker_closed_runs threshold timeout t0 (length sched) fl tr1 i now r tr2 T (G2 F)); try assumption. unfold blength_ok, nlength_ok in *. lia.
Qed.
Print Assumptions nested_closed_runs.

(** The branch of each call is the one its breaker decided. *)
Theorem nested_branch_follows_decision : forall cfg t0 n sched b, (b < length cfg)%nat ->
  let tr := of_breaker b (snd (nest_exec cfg t0 n sched)) in
  (forall tr1 i tr2, tr = tr1 ++ EOnOpen i :: tr2 -> last_consult i None tr1 = Some false) /\
  (forall tr1 i tr2, tr = tr1 ++ ETask i :: tr2 -> last_consult i None tr1 = Some true).
Proof.
  intros cfg t0 n sched b H. destruct (nth_error cfg b) as [[thr to]|] eqn:C; [|apply nth_error_None in C; lia].
  destruct (each_breaker cfg t0 n sched b _ _ C) as (fl & _ & _ & G). cbn zeta. rewrite G. apply breaker_branch_follows_decision.
Qed.
Print Assumptions nested_branch_follows_decision.

(** What one goroutine sees is whole calls, one after the other and one inside the other: its callbacks in the
    documented order, for the innermost call that is not over. *)
Theorem nested_whole_calls : forall cfg t0 n sched g, (g < n)%nat ->
  exists rest, whole_calls (seen_by g (snd (nest_exec cfg t0 n sched)) ++ rest) /\
    (nth_error (n_stacks (fst (nest_exec cfg t0 n sched))) g = Some [] -> rest = []).
Proof. exact brackets. Qed.
Print Assumptions nested_whole_calls.

(** No data races. *)
Theorem nested_no_races : forall cfg t0 n sched i j, ~ races (fst (nest_exec cfg t0 n sched)) i j.
Proof. exact no_races. Qed.
Print Assumptions nested_no_races.

(** No deadlock: however the goroutines are scheduled, after at most ten steps each they are all back in user code;
    nothing else can make them stop. *)
Theorem nested_no_deadlock : forall cfg t0 n sched,
  (forall m s', runs_on (fst (nest_exec cfg t0 n sched)) m s' ->
     Z.of_nat m <= 10 * Z.of_nat n /\ ((forall g, nstep s' (NStep g) = None) -> all_in_user_code s')) /\
  exists m s', runs_on (fst (nest_exec cfg t0 n sched)) m s' /\ all_in_user_code s'.
Proof. intros cfg t0 n sched. split; [exact (runs_bounded cfg t0 n sched)|exact (drains_run cfg t0 n sched)]. Qed.
Print Assumptions nested_no_deadlock.

(** Also if a goroutine that wants to read is held back while another waits to write, as Go's RWMutex does: as long as
    not all are in user code, one that is not held back can go on. *)
Theorem nested_writers_first : forall cfg t0 n sched,
  let s := fst (nest_exec cfg t0 n sched) in all_in_user_code s \/ exists g r, nstep s (NStep g) = Some r /\ ~ held_back s g.
Proof. exact busy_goes_on. Qed.
Print Assumptions nested_writers_first.

(** Goroutine 0 runs, inside a task of breaker 0, a task of breaker 1 that fails; onError of breaker 1 calls breaker 0
    again; goroutine 1 meets the locked breaker 1 and is then refused; its onOpen calls breaker 0. *)
Definition goes (g n : nat) : list nlabel := repeat (NStep g) n.
Definition nest1 : list nlabel :=
  [NDo 0 0] ++ goes 0 8 ++ [NDo 0 1] ++ goes 0 8 ++ [NEnd 0 (TaskErr 7); NClock 60] ++ goes 0 3 ++
  [NDo 1 1] ++ goes 1 2 ++ goes 0 4 ++ [NDo 0 0] ++ goes 0 8 ++ goes 1 10 ++ [NDo 1 0] ++ goes 1 8.
Definition nest2 : list nlabel :=
  [NEnd 0 TaskOk] ++ goes 0 4 ++ [NEnd 0 TaskOk; NEnd 0 TaskOk] ++ goes 0 4.
Example nested_case :
  Forall nclock_ok (nest1 ++ nest2) /\
  (let '(s, tr) := nest_exec [(2, 100); (1, 1000)] 50 2 (nest1 ++ nest2) in
   of_breaker 1 tr = [ECall 1; EConsult 1 50 true; ETask 1; EDone 1 (TaskErr 7); ECall 2; EFailure 60; EOnError 1 7; EConsult 2 60 false; EOnOpen 2] /\
   seen_by 0 tr = [WCall 0 0; WTask 0 0; WCall 1 1; WTask 1 1; WTaskEnd 1 1 (TaskErr 7); WOnError 1 1 7;
     WCall 0 3; WTask 0 3; WTaskEnd 0 3 TaskOk; WReturn 0 3; WReturn 1 1; WTaskEnd 0 0 TaskOk; WReturn 0 0] /\
   seen_by 1 tr = [WCall 1 2; WOnOpen 1 2; WCall 0 4; WTask 0 4] /\
   nth_error (n_stacks s) 0 = Some [] /\ nth_error (n_stacks s) 1 = Some [4%nat; 2%nat]) /\
  (let s := fst (nest_exec [(2, 100); (1, 1000)] 50 2 (firstn 25 nest1)) in
   nth_error (n_stacks s) 1 = Some [2%nat] /\ nstep s (NStep 1) = None /\ exists r, nstep s (NStep 0) = Some r).
Proof.
  split; [repeat constructor; vm_compute; congruence|]. split; [vm_compute; repeat split|].
  vm_compute. repeat split. eexists. reflexivity.
Qed.

(** Nesting calls of one breaker defeats it: a single goroutine, threshold 1.  A call inside a task fails and the
    breaker opens, but the task that made the call succeeds and closes it again at once: the next failing call is run
    within the timeout. *)
Definition masked : list nlabel :=
  [NDo 0 0] ++ goes 0 8 ++ [NDo 0 0] ++ goes 0 8 ++ [NEnd 0 (TaskErr 7)] ++ goes 0 7 ++ [NEnd 0 TaskOk; NEnd 0 TaskOk] ++ goes 0 4.
Theorem nested_failure_opens_refuted : exists cfg t0 sched threshold timeout tr1 t tr2 i now tr3,
  nth_error cfg 0 = Some (threshold, timeout) /\ 1 <= threshold /\ 0 <= t0 < 2 ^ 62 /\ Forall nclock_ok sched /\ nlength_ok sched /\
  of_breaker 0 (snd (nest_exec cfg t0 1 sched)) = tr1 ++ EFailure t :: tr2 ++ EConsult i now true :: tr3 /\
  threshold <= failures_since_success (tr1 ++ [EFailure t]) /\ t <= now <= t + timeout.
Proof.
  exists [(1, 1000)], 50, (masked ++ masked), 1, 1000,
    [ECall 0; EConsult 0 50 true; ETask 0; ECall 1; EConsult 1 50 true; ETask 1; EDone 1 (TaskErr 7)], 50,
    [EOnError 1 7; EDone 0 TaskOk; ESuccess; ECall 2], 2%nat, 50,
    [ETask 2; ECall 3; EConsult 3 50 true; ETask 3; EDone 3 (TaskErr 7); EFailure 50; EOnError 3 7; EDone 2 TaskOk; ESuccess].
  split; [reflexivity|]. split; [lia|]. split; [vm_compute; split; congruence|]. split; [repeat constructor|].
  split; [vm_compute; reflexivity|]. split; [vm_compute; reflexivity|]. split; [vm_compute; congruence|vm_compute; split; congruence].
Qed.
Print Assumptions nested_failure_opens_refuted.
