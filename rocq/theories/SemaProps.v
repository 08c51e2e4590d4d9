(** Property theorems for the semaphores (C25-C29). *)
From Verif Require Import Common Threads SemaModel SemaSpec SemaProofs.

(** C29.  The observable histories (calls and returns) of the two implementations are exactly the
    histories that [allowed] describes; hence the implementations are interchangeable. *)
Theorem lock_semaphore_histories : forall permits n tr, in64 permits ->
  ((exists sched, snd (lock_exec permits n sched) = tr) <-> semaphore_history permits n tr).
Proof. exact lock_histories. Qed.
Print Assumptions lock_semaphore_histories.

Theorem chan_semaphore_histories : forall permits n tr, 1 <= permits ->
  ((exists sched s, chan_exec permits n sched = Some (s, tr)) <-> semaphore_history permits n tr).
Proof. exact chan_histories. Qed.
Print Assumptions chan_semaphore_histories.

Theorem semaphores_interchangeable : forall permits n tr, 1 <= permits -> in64 permits ->
  ((exists sched, snd (lock_exec permits n sched) = tr) <->
   (exists sched s, chan_exec permits n sched = Some (s, tr))).
Proof.
  exact (fun permits n tr H1 H2 =>
    iff_trans (lock_histories permits n tr H2) (iff_sym (chan_histories permits n tr H1))).
Qed.
Print Assumptions semaphores_interchangeable.

(** A run with a goroutine that sleeps and is woken, on both implementations. *)
Definition sleep_and_wake : list slabel :=
  [SCall 0 OpAcquire; SStep 0; SCall 1 OpAcquire; SStep 1; SCall 2 OpTry; SStep 2;
   SCall 0 OpRelease; SStep 0; SStep 1; SCall 2 OpTry; SStep 2; SCall 1 OpRelease; SStep 1;
   SCall 2 OpRelease; SStep 2].
Definition sleep_and_wake_history : list sevent :=
  [ESCall 0 OpAcquire; ESAcquired 0; ESCall 1 OpAcquire; ESCall 2 OpTry; ESTried 2 false;
   ESCall 0 OpRelease; ESReleased 0; ESAcquired 1; ESCall 2 OpTry; ESTried 2 false;
   ESCall 1 OpRelease; ESReleased 1; ESCall 2 OpRelease; ESReleased 2].
Example semaphores_case :
  snd (lock_exec 1 3 sleep_and_wake) = sleep_and_wake_history /\
  option_map snd (chan_exec 1 3 sleep_and_wake) = Some sleep_and_wake_history.
Proof. vm_compute. split; reflexivity. Qed.

(** With zero permits they differ: a Release lets a blocked Acquire of the channel version return. *)
Theorem semaphores_zero_permits_refuted :
  exists n sched s tr, chan_exec 0 n sched = Some (s, tr) /\ In (ESAcquired 0) tr /\
    forall sched', ~ In (ESAcquired 0) (snd (lock_exec 0 n sched')).
Proof.
  exists 2%nat, [SCall 0 OpAcquire; SStep 0; SCall 1 OpRelease; SStep 1].
  eexists _, _. split; [vm_compute; reflexivity|]. split; [right; right; right; left; reflexivity|].
  intros sched' Hin. apply in_split in Hin. destruct Hin as (tr1 & tr2 & Heq).
  pose proof (lock_history 0 2 sched' ltac:(unfold in64; lia)) as H.
  pose proof (acquired_exact _ _ _ _ _ _ H Heq) as Hlt.
  rewrite Heq in H. destruct (allowed_app _ _ _ _ _ H) as (HA & _).
  pose proof (taken_from_bounds _ _ _ _ HA ltac:(lia)). unfold taken in Hlt. lia.
Qed.
Print Assumptions semaphores_zero_permits_refuted.

(** C25.  Never more holders than permits, if Release is only called for held acquisitions. *)
Theorem lock_semaphore_holders : forall permits n sched, in64 permits ->
  let tr := snd (lock_exec permits n sched) in
  disciplined tr -> held tr <= Z.max 0 permits.
Proof. exact (fun permits n sched Hp => holders_bound permits n _ (lock_history permits n sched Hp)). Qed.
Print Assumptions lock_semaphore_holders.

Theorem chan_semaphore_holders : forall permits n sched s tr, 1 <= permits ->
  chan_exec permits n sched = Some (s, tr) -> disciplined tr -> held tr <= permits.
Proof.
  intros permits n sched s tr Hp H Hd.
  exact (Z.le_trans _ _ _ (holders_bound permits n tr (chan_history permits n sched s tr Hp H) Hd)
           (Z.eq_le_incl _ _ (Z.max_r 0 permits (Z.le_trans 0 1 permits Z.le_0_1 Hp)))).
Qed.
Print Assumptions chan_semaphore_holders.

(** The first eight events of the run above are disciplined and reach the bound. *)
Example semaphore_holders_case :
  let tr := firstn 8 sleep_and_wake_history in disciplined tr /\ held tr = 1.
Proof.
  cbv zeta. split; [|reflexivity]. intros tr1 tr2 H. vm_compute in H.
  do 8 (destruct tr1 as [|? tr1]; [vm_compute; congruence|injection H as <- H]).
  destruct tr1; [vm_compute; congruence|discriminate H].
Qed.

(** C26.  Whatever calls of Release were made before, from any moment on and until the next Release
    returns, at most the permits not taken at that moment can be acquired; there are never more than
    [permits] of those. *)
Theorem lock_semaphore_no_extra_permits : forall permits n sched tr1 tr2, in64 permits ->
  snd (lock_exec permits n sched) = tr1 ++ tr2 -> releases_done tr2 = 0 ->
  acquisitions tr2 <= Z.max 0 permits - taken tr1 /\ 0 <= taken tr1 <= Z.max 0 permits.
Proof.
  exact (fun permits n sched tr1 tr2 Hp Heq =>
    no_extra_permits permits n tr1 tr2 (eq_ind _ _ (lock_history permits n sched Hp) _ Heq)).
Qed.
Print Assumptions lock_semaphore_no_extra_permits.

Theorem chan_semaphore_no_extra_permits : forall permits n sched s tr1 tr2, 1 <= permits ->
  chan_exec permits n sched = Some (s, tr1 ++ tr2) -> releases_done tr2 = 0 ->
  acquisitions tr2 <= Z.max 0 permits - taken tr1 /\ 0 <= taken tr1 <= Z.max 0 permits.
Proof.
  exact (fun permits n sched s tr1 tr2 Hp H =>
    no_extra_permits permits n tr1 tr2 (chan_history permits n sched s _ Hp H)).
Qed.
Print Assumptions chan_semaphore_no_extra_permits.

(** Three surplus Releases on a semaphore with two permits, then three attempts: two succeed. *)
Definition over_release : list slabel :=
  [SCall 0 OpRelease; SStep 0; SCall 0 OpRelease; SStep 0; SCall 0 OpRelease; SStep 0;
   SCall 0 OpTry; SStep 0; SCall 0 OpTry; SStep 0; SCall 0 OpTry; SStep 0].
Example over_release_case :
  acquisitions (snd (lock_exec 2 1 over_release)) = 2 /\
  option_map (fun x => acquisitions (snd x)) (chan_exec 2 1 over_release) = Some 2.
Proof. vm_compute. split; reflexivity. Qed.

(** C27.  TryAcquire answers exactly whether a permit is free, and always can answer. *)
Theorem lock_semaphore_try_exact : forall permits n sched tr1 i b tr2, in64 permits ->
  snd (lock_exec permits n sched) = tr1 ++ ESTried i b :: tr2 -> b = (taken tr1 <? permits).
Proof.
  exact (fun permits n sched tr1 i b tr2 Hp =>
    tried_exact permits n _ tr1 i b tr2 (lock_history permits n sched Hp)).
Qed.
Print Assumptions lock_semaphore_try_exact.

Theorem chan_semaphore_try_exact : forall permits n sched s tr tr1 i b tr2, 1 <= permits ->
  chan_exec permits n sched = Some (s, tr) -> tr = tr1 ++ ESTried i b :: tr2 -> b = (taken tr1 <? permits).
Proof.
  exact (fun permits n sched s tr tr1 i b tr2 Hp H =>
    tried_exact permits n tr tr1 i b tr2 (chan_history permits n sched s tr Hp H)).
Qed.
Print Assumptions chan_semaphore_try_exact.

Theorem lock_semaphore_try_never_blocks : forall permits n sched i,
  let '(s, tr) := lock_exec permits n sched in
  nth_error (ls_threads s) i = Some STry -> exists s1 b, lstep s (SStep i) = Some (s1, [ESTried i b]).
Proof. exact lock_try_never_blocks. Qed.
Print Assumptions lock_semaphore_try_never_blocks.

Theorem chan_semaphore_try_never_blocks : forall permits n sched s tr i,
  chan_exec permits n sched = Some (s, tr) ->
  nth_error (cs_threads s) i = Some STry -> exists s1 b, cstep s (SStep i) = Some (s1, [ESTried i b]).
Proof. exact chan_try_never_blocks. Qed.
Print Assumptions chan_semaphore_try_never_blocks.

(** C28.  Whenever a permit is free, every goroutine inside Acquire is awake and its next step returns
    from Acquire with the permit. *)
Theorem lock_semaphore_no_lost_wakeup : forall permits n sched i pc, in64 permits ->
  let '(s, tr) := lock_exec permits n sched in
  taken tr < permits -> nth_error (ls_threads s) i = Some pc -> pend pc = Some OpAcquire ->
  exists s1, lstep s (SStep i) = Some (s1, [ESAcquired i]).
Proof. exact lock_no_lost_wakeup. Qed.
Print Assumptions lock_semaphore_no_lost_wakeup.

Theorem chan_semaphore_no_lost_wakeup : forall permits n sched s tr i pc, 1 <= permits ->
  chan_exec permits n sched = Some (s, tr) ->
  taken tr < permits -> nth_error (cs_threads s) i = Some pc -> pend pc = Some OpAcquire ->
  exists s1, cstep s (SStep i) = Some (s1, [ESAcquired i]).
Proof. exact chan_no_lost_wakeup. Qed.
Print Assumptions chan_semaphore_no_lost_wakeup.

(** The channel version hands a released permit to the goroutine that has waited longest. *)
Theorem chan_semaphore_release_hands_over : forall permits n sched s tr i j q, 1 <= permits ->
  chan_exec permits n sched = Some (s, tr) ->
  nth_error (cs_threads s) i = Some SRel -> cs_queue s = j :: q ->
  exists s1, cstep s (SStep i) = Some (s1, [ESReleased i; ESAcquired j]) /\ cs_queue s1 = q.
Proof. exact chan_release_hands_over. Qed.
Print Assumptions chan_semaphore_release_hands_over.

(** Two sleepers; after a Release the lock version wakes both, one of which gets the permit. *)
Example semaphore_wakeup_case :
  let sched := [SCall 0 OpAcquire; SStep 0; SCall 1 OpAcquire; SStep 1; SCall 2 OpAcquire; SStep 2;
                SCall 0 OpRelease; SStep 0] in
  ls_threads (fst (lock_exec 1 3 sched)) = [SIdle; SAcq; SAcq] /\
  option_map (fun x => cs_threads (fst x)) (chan_exec 1 3 sched) = Some [SIdle; SIdle; SWait].
Proof. vm_compute. split; reflexivity. Qed.
