(** C114: the lock based semaphore with one step per access to a field, the mutex or the condition variable. *)
From Verif Require Import Common Threads SemaModel SemaSpec SemaFineModel SemaFineSpec SemaFineProofs.

(** C114.  Every history of calls and returns is explained by instants, one for each call between its beginning and
    its return, such that the calls in the order of these instants make a history of a semaphore (the histories of
    C29). *)
Theorem lock_semaphore_linearizable : forall permits n sched, in64 permits ->
  exists tr, explained permits n (snd (fine_exec permits n sched)) tr.
Proof. exact fine_explained. Qed.
Print Assumptions lock_semaphore_linearizable.

(** Never more holders than permits, counted by returns of acquisitions and calls of Release. *)
Theorem lock_semaphore_holders_fine : forall permits n sched, in64 permits ->
  let tr := snd (fine_exec permits n sched) in disciplined tr -> held tr <= Z.max 0 permits.
Proof. exact fine_holders. Qed.
Print Assumptions lock_semaphore_holders_fine.

(** No data races. *)
Theorem lock_semaphore_no_races : forall permits n sched, ~ race (fst (fine_exec permits n sched)).
Proof. exact fine_no_race. Qed.
Print Assumptions lock_semaphore_no_races.

(** Without new calls [n] goroutines make only so many steps, *)
Theorem lock_semaphore_steps_bounded : forall permits n sched sched2, Forall no_calls sched2 ->
  steps_made (fst (fine_exec permits n sched)) sched2 <= Z.of_nat n * (10 * Z.of_nat n + 9).
Proof. exact fine_bounded. Qed.
Print Assumptions lock_semaphore_steps_bounded.

(** and when nobody can make a step any more, a goroutine that is still in a call is in Acquire, and all permits are
    taken. *)
Theorem lock_semaphore_stuck_only_when_full : forall permits n sched, in64 permits ->
  let '(f, evs) := fine_exec permits n sched in
  (forall i, fstep f (SStep i) = None) ->
  forall i pc o, nth_error (fs_threads f) i = Some pc -> inside pc = Some o ->
  o = OpAcquire /\ exists tr, explained permits n evs tr /\ permits <= taken (effects tr).
Proof. exact fine_stuck. Qed.
Print Assumptions lock_semaphore_stuck_only_when_full.

(** Goroutine 1 finds the only permit taken and is overtaken while it goes to sleep: the Release of goroutine 0 comes
    after goroutine 1 is on the notify list and before it sleeps. *)
Definition go (i k : nat) : list slabel := repeat (SStep i) k.
Definition overtaken : list slabel :=
  [SCall 0 OpAcquire] ++ go 0 7 ++ [SCall 1 OpAcquire; SCall 0 OpRelease; SCall 2 OpTry] ++ go 1 5 ++ go 0 1 ++ go 1 1 ++
  go 2 6 ++ go 0 6 ++ go 1 20.
Example overtaken_case :
  snd (fine_exec 1 3 overtaken) =
    [ESCall 0 OpAcquire; ESAcquired 0; ESCall 1 OpAcquire; ESCall 0 OpRelease; ESCall 2 OpTry; ESReleased 0; ESAcquired 1] /\
  fs_threads (fst (fine_exec 1 3 overtaken)) = [FIdle; FIdle; FLock OpTry] /\
  (let f := fst (fine_exec 1 3 (firstn 15 overtaken)) in
   fs_list f = [1%nat] /\ fs_lock f = Some 1%nat /\ nth_error (fs_threads f) 1 = Some FWaitUnlock).
Proof. vm_compute. repeat split; reflexivity. Qed.
Example disciplined_case :
  let tr := snd (fine_exec 1 3 overtaken) in disciplined tr /\ held tr = 1.
Proof.
  cbv zeta. split; [|reflexivity]. intros tr1 tr2 H. vm_compute in H.
  do 7 (destruct tr1 as [|? tr1]; [vm_compute; congruence|injection H as <- H]).
  destruct tr1; [vm_compute; congruence|discriminate H].
Qed.

(** Two goroutines want one permit; in the end one sleeps. *)
Definition both_want : list slabel := [SCall 0 OpAcquire; SCall 1 OpAcquire] ++ go 0 9 ++ go 1 9.
Example both_want_case :
  let f := fst (fine_exec 1 2 both_want) in
  (forall i, fstep f (SStep i) = None) /\ nth_error (fs_threads f) 1 = Some FWaitSleep /\
  Forall no_calls (go 0 9 ++ go 1 9) /\
  steps_made (fst (fine_exec 1 2 [SCall 0 OpAcquire; SCall 1 OpAcquire])) (go 0 9 ++ go 1 9) = 12.
Proof.
  cbv zeta. split; [|split; [reflexivity|split; [|reflexivity]]].
  - intros [|[|[|i]]]; reflexivity.
  - apply Forall_forall. intros l H. apply in_app_or in H. unfold go in H. destruct H as [H|H]; apply repeat_spec in H; subst; exact I.
Qed.

(** Two goroutines that each have read a field in a step of their own; with the mutex left out there would be a race. *)
Example race_case :
  race (FSema 1 0 (Some 0%nat) [] [FWriteN OpAcquire 0; FReadC OpTry]).
Proof. exists 0%nat, 1%nat, Fcount, true, false. repeat split; auto. Qed.
