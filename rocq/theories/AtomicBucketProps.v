(** Property theorems for the atomic token bucket (C04-C06). *)
From Verif Require Import Common Threads TokenBucketModel TokenBucketSpec.
From Verif Require Import AtomicBucketModel AtomicBucketSpec AtomicBucketProofs.

(** C04.  Used by one goroutine the atomic bucket always returns, with the mutex bucket's results; for
    every rate and every clock (also backwards, also with int64 wrap-around). *)
Theorem atomic_bucket_agrees_with_sync : forall capacity rate t0 nows,
  in64 capacity ->
  atomic_solo_results capacity rate t0 nows = Some (sync_bucket_results capacity rate t0 nows).
Proof. exact atomic_agrees. Qed.
Print Assumptions atomic_bucket_agrees_with_sync.

Example atomic_bucket_agrees_case :
  atomic_solo_results 2 3 0 [5; 6; 7; second; 0; 2 * second; 2 * second; 2 * second; 2 * second] =
  Some [true; true; false; true; false; true; true; false; false].
Proof. vm_compute. reflexivity. Qed.

(** One goroutine makes one complete Acquire (at most 8 steps). *)
Definition one_call (i : nat) : list alabel := ACall i :: repeat (AStep i) 8.

(** C06.  Every interleaving: grants are bounded by capacity + issued + withdrawn + in-flight refills,
    and the store never holds more than capacity. *)
Theorem atomic_bucket_grants_bound : forall capacity rate t0 t n sched,
  0 <= capacity -> 0 <= rate -> t0 <= t -> no_overflow capacity rate t0 t ->
  nondecreasing (t0 :: clocks sched) -> Forall (fun x => x <= t) (clocks sched) ->
  let '(s, tr) := atomic_exec capacity rate t0 n sched in
  withdrawn tr < 2 ^ 62 ->
  grants tr <= capacity + rate * whole_seconds (t - t0) + withdrawn tr + in_flight s /\
  ab_tokens s <= capacity /\ 0 <= in_flight s.
Proof. exact atomic_grants_bound. Qed.
Print Assumptions atomic_bucket_grants_bound.

(** Non-vacuous: a run with an overlapping refill that is withdrawn. *)
Example atomic_bucket_grants_bound_case :
  let sched := one_call 0 ++ one_call 1 ++ [AClock second] ++ [ACall 0; ACall 1; AStep 0; AStep 1; AStep 0]
               ++ repeat (AStep 1) 8 ++ repeat (AStep 0) 8 in
  let '(s, tr) := atomic_exec 1 1 0 2 sched in
  tr = [ARet 0 true; ARet 1 false; ARet 1 true; AWithdraw 0 1; ARet 0 false] /\ withdrawn tr = 1.
Proof. vm_compute. repeat split. Qed.

(** C06/C05.  The bound of the mutex bucket holds in every finished run without withdrawals. *)
Theorem atomic_bucket_total_bound_no_withdrawal : forall capacity rate t0 t n sched,
  0 <= capacity -> 0 <= rate -> t0 <= t -> no_overflow capacity rate t0 t ->
  nondecreasing (t0 :: clocks sched) -> Forall (fun x => x <= t) (clocks sched) ->
  let '(s, tr) := atomic_exec capacity rate t0 n sched in
  quiet s -> withdrawn tr = 0 ->
  grants tr <= capacity + rate * whole_seconds (t - t0).
Proof. exact atomic_quiet_bound. Qed.
Print Assumptions atomic_bucket_total_bound_no_withdrawal.

(** Non-vacuous and tight: two goroutines, capacity 1, rate 1, 2 grants in one second. *)
Example atomic_bucket_total_bound_case :
  let sched := one_call 0 ++ one_call 1 ++ [AClock second] ++ [ACall 0; ACall 1; AStep 0; AStep 1]
               ++ repeat (AStep 1) 8 ++ repeat (AStep 0) 8 in
  let '(s, tr) := atomic_exec 1 1 0 2 sched in
  quiet s /\ withdrawn tr = 0 /\ grants tr = 2 /\ tr = [ARet 0 true; ARet 1 false; ARet 1 true; ARet 0 false].
Proof. vm_compute. repeat split; repeat constructor. Qed.

(** C05 refuted.  Capacity 1, rate 1, one second: three grants, all goroutines finished.
    Goroutine 1 prepares a refill; goroutine 2 refills and takes the token; goroutine 1's CAS still
    succeeds (the store is back at the value it read); goroutine 3 takes that token; only then does
    goroutine 1 notice and withdraw its refill. *)
Theorem atomic_bucket_total_bound_refuted :
  exists capacity rate t0 t n sched,
    0 <= capacity /\ 0 <= rate /\ no_overflow capacity rate t0 t /\
    nondecreasing (t0 :: clocks sched) /\ Forall (fun x => x <= t) (clocks sched) /\
    let '(s, tr) := atomic_exec capacity rate t0 n sched in
    quiet s /\ grants tr > capacity + rate * whole_seconds (t - t0).
Proof.
  exists 1, 1, 0, second, 4%nat,
    (one_call 0 ++ [AClock second; ACall 1; AStep 1; AStep 1; AStep 1] ++ one_call 2 ++ [AStep 1] ++
     one_call 3 ++ repeat (AStep 1) 8).
  split; [lia|]. split; [lia|]. split; [repeat split; vm_compute; congruence|].
  split; [vm_compute; repeat split; repeat constructor; congruence|].
  split; [repeat constructor; vm_compute; congruence|].
  vm_compute. split; [repeat constructor|reflexivity].
Qed.
Print Assumptions atomic_bucket_total_bound_refuted.
