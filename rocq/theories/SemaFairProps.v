(** Theorems about who gets a permit first (C106). *)
From Verif Require Import Common Threads SemaModel SemaSpec SemaFairSpec SemaFairProofs.

(** C106.  Channel version: from a moment when [j] is blocked in Acquire, as long as [j] has not got a permit only
    goroutines that were blocked at that moment get one, each at most once and one for each Release; no TryAcquire
    succeeds. *)
Theorem chan_semaphore_first_come : forall permits n sched1 s1 tr1 sched2 j, 1 <= permits ->
  chan_exec permits n sched1 = Some (s1, tr1) -> asleep j (cs_threads s1) ->
  let tr2 := snd (exec cstep s1 sched2) in ~ In (ESAcquired j) tr2 ->
  releases_done tr2 < sleepers (cs_threads s1) /\ acquisitions tr2 = releases_done tr2 /\ NoDup (acquirers tr2) /\
  (forall i, In i (acquirers tr2) -> asleep i (cs_threads s1) /\ i <> j) /\ forall i, ~ In (ESTried i true) tr2.
Proof. exact chan_first_come. Qed.
Print Assumptions chan_semaphore_first_come.

(** So after as many Releases as goroutines were blocked, it has one. *)
Theorem chan_semaphore_waiter_served : forall permits n sched1 s1 tr1 sched2 j, 1 <= permits ->
  chan_exec permits n sched1 = Some (s1, tr1) -> asleep j (cs_threads s1) ->
  sleepers (cs_threads s1) <= releases_done (snd (exec cstep s1 sched2)) -> In (ESAcquired j) (snd (exec cstep s1 sched2)).
Proof. exact chan_served. Qed.
Print Assumptions chan_semaphore_waiter_served.

(** Two are blocked, 0 before 2; a third one comes, a TryAcquire fails; two Releases serve 0 and 2. *)
Example chan_first_come_case :
  let sched1 := [SCall 1 OpAcquire; SStep 1; SCall 0 OpAcquire; SStep 0; SCall 2 OpAcquire; SStep 2] in
  let sched2 := [SCall 3 OpAcquire; SCall 1 OpTry; SStep 1; SCall 1 OpRelease; SStep 1; SStep 3; SCall 0 OpRelease; SStep 0] in
  exists s1 tr1, chan_exec 1 4 sched1 = Some (s1, tr1) /\ asleep 2 (cs_threads s1) /\ sleepers (cs_threads s1) = 2 /\
    snd (exec cstep s1 sched2) =
    [ESCall 3 OpAcquire; ESCall 1 OpTry; ESTried 1 false; ESCall 1 OpRelease; ESReleased 1; ESAcquired 0; ESCall 0 OpRelease; ESReleased 0; ESAcquired 2].
Proof. eexists _, _. split; [vm_compute; reflexivity|]. repeat split; vm_compute; reflexivity. Qed.

(** C106 for the lock version: refuted.  There is an endless schedule in which both goroutines get their turn again and
    again and every permit is given back, but one that waits in Acquire never gets one: the other one does, over and
    over. *)
Theorem lock_semaphore_first_come_refuted :
  exists sched : nat -> slabel, fair_to 2 sched /\
    In (ESCall 0 OpAcquire) (snd (lock_exec 1 2 (upto 4 sched))) /\ asleep 0 (ls_threads (fst (lock_exec 1 2 (upto 4 sched)))) /\
    forall k, let tr m := snd (lock_exec 1 2 (upto m sched)) in
      disciplined (tr k) /\ ~ In (ESAcquired 0) (tr k) /\ exists m, count (fun e => match e with ESAcquired 1 => true | _ => false end) (tr m) = Z.of_nat k + 1.
Proof.
  exists starve. split; [exact starve_fair|]. split; [vm_compute; right; right; left; reflexivity|]. split; [vm_compute; reflexivity|].
  intros k. split; [apply starve_disciplined|]. split; [apply starve_never|]. exists (4 + 5 * k)%nat. apply starve_acquired.
Qed.
Print Assumptions lock_semaphore_first_come_refuted.
