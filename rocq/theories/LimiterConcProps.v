(** Theorems about the limiters and the circuit breaker used by several goroutines, one step being one access to a
    field or the lock or one reading of the clock. *)
From Verif Require Import Common Threads TokenBucketModel TokenBucketSpec FixedWindowModel SlidingWindowModel SlidingWindowSpec BreakerModel
  MonitorModel MonitorSpec LimiterConcModel LimiterConcSpec LimiterConcProofs LimiterConcRates FixedConcRates.

(** C100.  Any number of goroutines may call any methods at any time, with any clock: no two goroutines are ever about
    to access the same field with one of them writing, and as long as a call is in progress some goroutine can move. *)
Theorem token_bucket_calls_safe : forall capacity rate t0 n sched, let w := fst (bucket_exec capacity rate t0 n sched) in
  ~ race w /\ forall t, in_call w t -> exists u, mstep tbfield_eq tb_body w (MGo u) <> None.
Proof. intros. split; [apply (obj_no_races _ _ _ _ _ tb_typed)|apply (obj_no_deadlock _ _ _ _ _ tb_typed)]. Qed.
Print Assumptions token_bucket_calls_safe.
Theorem fixed_window_calls_safe : forall capacity windowSize t0 n sched, let w := fst (fixed_exec capacity windowSize t0 n sched) in
  ~ race w /\ forall t, in_call w t -> exists u, mstep fwfield_eq fw_body w (MGo u) <> None.
Proof. intros. split; [apply (obj_no_races _ _ _ _ _ fw_typed)|apply (obj_no_deadlock _ _ _ _ _ fw_typed)]. Qed.
Print Assumptions fixed_window_calls_safe.
Theorem sliding_window_calls_safe : forall capacity windowSize t0 n sched, let w := fst (sliding_exec capacity windowSize t0 n sched) in
  ~ race w /\ forall t, in_call w t -> exists u, mstep swfield_eq sw_body w (MGo u) <> None.
Proof. intros. split; [apply (obj_no_races _ _ _ _ _ sw_typed)|apply (obj_no_deadlock _ _ _ _ _ sw_typed)]. Qed.
Print Assumptions sliding_window_calls_safe.
Theorem circuit_breaker_calls_safe : forall threshold timeout t0 n sched, let w := fst (circuit_exec threshold timeout t0 n sched) in
  ~ race w /\ forall t, in_call w t -> exists u, mstep cbfield_eq cb_body w (MGo u) <> None.
Proof. intros. split; [apply (obj_no_races _ _ _ _ _ cb_typed)|apply (obj_no_deadlock _ _ _ _ _ cb_typed)]. Qed.
Print Assumptions circuit_breaker_calls_safe.

(** Two goroutines in Acquire, the second one waiting for the lock: only the first one can move. *)
Example bucket_contended :
  let w := fst (bucket_exec 3 1 5 2 [MCall 0 BAcquire; MCall 1 BAcquire; MGo 0; MGo 0; MGo 0; MGo 1]) in
  in_call w 0 /\ in_call w 1 /\ about_to w 0 = Some (TCapacity, false) /\ mstep tbfield_eq tb_body w (MGo 1) = None /\ mstep tbfield_eq tb_body w (MGo 0) <> None.
Proof.
  cbv zeta. split; [apply in_call_check; vm_compute; reflexivity|]. split; [apply in_call_check; vm_compute; reflexivity|]. split; [vm_compute; reflexivity|].
  split; [apply none_check|apply some_check]; vm_compute; reflexivity.
Qed.
(** [race] is not empty talk: without the lock two goroutines do race. *)
Example race_without_lock :
  race (fst (mon_exec tbfield_eq (fun _ : tbmethod => CGet TTokens (fun z => CSet TTokens (z - 1) (CRet LUnit))) (tb_mem (new_sync_bucket 3 1 5)) 5 2
    [MCall 0 BAcquire; MCall 1 BAcquire; MGo 0])).
Proof. exists 0%nat, 1%nat, TTokens, true, false. split; [discriminate|]. split; [vm_compute; reflexivity|]. split; [vm_compute; reflexivity|]. left. reflexivity. Qed.

(** C100.  When every goroutine gets its turn again and again, all calls in progress return. *)
Theorem token_bucket_calls_return : forall capacity rate t0 n sched rest, (forall i, no_call (rest i)) -> fair n rest ->
  exists k, forall t, ~ in_call (fst (bucket_exec capacity rate t0 n (sched ++ first k rest))) t.
Proof. intros. apply (obj_calls_return _ _ _ _ _ tb_typed); assumption. Qed.
Print Assumptions token_bucket_calls_return.
Theorem fixed_window_calls_return : forall capacity windowSize t0 n sched rest, (forall i, no_call (rest i)) -> fair n rest ->
  exists k, forall t, ~ in_call (fst (fixed_exec capacity windowSize t0 n (sched ++ first k rest))) t.
Proof. intros. apply (obj_calls_return _ _ _ _ _ fw_typed); assumption. Qed.
Print Assumptions fixed_window_calls_return.
Theorem sliding_window_calls_return : forall capacity windowSize t0 n sched rest, (forall i, no_call (rest i)) -> fair n rest ->
  exists k, forall t, ~ in_call (fst (sliding_exec capacity windowSize t0 n (sched ++ first k rest))) t.
Proof. intros. apply (obj_calls_return _ _ _ _ _ sw_typed); assumption. Qed.
Print Assumptions sliding_window_calls_return.
Theorem circuit_breaker_calls_return : forall threshold timeout t0 n sched rest, (forall i, no_call (rest i)) -> fair n rest ->
  exists k, forall t, ~ in_call (fst (circuit_exec threshold timeout t0 n (sched ++ first k rest))) t.
Proof. intros. apply (obj_calls_return _ _ _ _ _ cb_typed); assumption. Qed.
Print Assumptions circuit_breaker_calls_return.

(** Taking turns is fair. *)
Example taking_turns : let rest := fun i => @MGo tbmethod (i mod 2) in (forall i, no_call (rest i)) /\ fair 2 rest.
Proof.
  cbv zeta. split; [intros i; exact I|]. intros t i Ht. exists (t + i * 2)%nat. split; [lia|]. rewrite Nat.mod_add by lia. rewrite Nat.mod_small by lia. reflexivity.
Qed.
Example taking_turns_returns :
  let sched := [MCall 0 BAcquire; MCall 1 BAcquire; MGo 0] in let rest := fun i => @MGo tbmethod (i mod 2) in
  in_call (fst (bucket_exec 3 1 5 2 sched)) 1 /\ mo_threads (fst (bucket_exec 3 1 5 2 (sched ++ first 40 rest))) = [None; None].
Proof. cbv zeta. split; [apply in_call_check|]; vm_compute; reflexivity. Qed.

(** C101.  Calls take effect at one instant between call and return, and in the order of these instants do what they
    would do one after the other; their clock readings are readings of the clock between call and effect. *)
Theorem token_bucket_as_if_alone : forall capacity rate t0 n sched,
  as_if_alone bucket_call (new_sync_bucket capacity rate t0) t0 (snd (bucket_exec capacity rate t0 n sched)).
Proof. exact bucket_alone. Qed.
Print Assumptions token_bucket_as_if_alone.
Theorem fixed_window_as_if_alone : forall capacity windowSize t0 n sched,
  as_if_alone fixed_call (new_fw capacity windowSize) t0 (snd (fixed_exec capacity windowSize t0 n sched)).
Proof. exact fixed_alone. Qed.
Print Assumptions fixed_window_as_if_alone.
Theorem sliding_window_as_if_alone : forall capacity windowSize t0 n sched,
  as_if_alone sliding_call (new_sw capacity windowSize) t0 (snd (sliding_exec capacity windowSize t0 n sched)).
Proof. exact sliding_alone. Qed.
Print Assumptions sliding_window_as_if_alone.
Theorem circuit_breaker_as_if_alone : forall threshold timeout t0 n sched,
  as_if_alone circuit_call (Circuit threshold timeout 0 0) t0 (snd (circuit_exec threshold timeout t0 n sched)).
Proof. exact circuit_alone. Qed.
Print Assumptions circuit_breaker_as_if_alone.

(** A history that [as_if_alone] excludes: two goroutines both get the only token. *)
Example not_as_if_alone : ~ as_if_alone bucket_call (new_sync_bucket 1 0 5) 5
  [MCalled 0 BAcquire; MCalled 1 BAcquire; MReturned 0 BAcquire (LBool true); MReturned 1 BAcquire (LBool true)].
Proof. exact two_tokens_not_alone. Qed.
(** The bucket in that situation. *)
Example one_token_two_callers :
  snd (bucket_exec 1 0 5 2 ([MCall 0 BAcquire; MCall 1 BAcquire] ++ flat_map (fun _ => [MGo 0; MGo 1]) (seq 0 20))) =
  [MCalled 0 BAcquire; MCalled 1 BAcquire; MReturned 0 BAcquire (LBool true); MReturned 1 BAcquire (LBool false)].
Proof. vm_compute. reflexivity. Qed.
(** Three goroutines at the circuit breaker: two record failures while the third reads the state. *)
Example breaker_three_callers :
  let turns := flat_map (fun _ => [MGo 0; MGo 1; MGo 2]) (seq 0 24) in
  snd (circuit_exec 2 10 100 3 ([MCall 0 CRecordFailure; MCall 1 CRecordFailure; MCall 2 CState] ++ turns ++ [MTick 105; MCall 0 CState] ++ turns ++ [MTick 111; MCall 1 CState] ++ turns)) =
  [MCalled 0 CRecordFailure; MCalled 1 CRecordFailure; MCalled 2 CState; MReturned 0 CRecordFailure LUnit; MReturned 1 CRecordFailure LUnit; MReturned 2 CState (LState CbOpen);
   MTime 105; MCalled 0 CState; MReturned 0 CState (LState CbOpen); MTime 111; MCalled 1 CState; MReturned 1 CState (LState CbHalfOpen)].
Proof. vm_compute. reflexivity. Qed.

(** C102.  The token bucket in real time: from its creation, and in any stretch of a run while the clock goes from [a]
    to [b]. *)
Theorem token_bucket_total_in_real_time : forall capacity rate t0 n sched, let t := clock_at t0 sched in
  0 <= capacity -> 0 <= rate -> no_overflow capacity rate t0 t -> steady_clock t0 sched ->
  grants (snd (bucket_exec capacity rate t0 n sched)) <= capacity + rate * whole_seconds (t - t0).
Proof. exact bucket_total. Qed.
Print Assumptions token_bucket_total_in_real_time.
Theorem token_bucket_rate_in_real_time : forall capacity rate t0 n sched1 sched2,
  let a := clock_at t0 sched1 in let b := clock_at t0 (sched1 ++ sched2) in
  0 <= capacity -> 0 <= rate -> no_overflow capacity rate t0 b -> steady_clock t0 (sched1 ++ sched2) ->
  grants (snd (exec (mstep tbfield_eq tb_body) (fst (bucket_exec capacity rate t0 n sched1)) sched2)) <= capacity + rate * (whole_seconds (b - a) + 1).
Proof. exact bucket_rate. Qed.
Print Assumptions token_bucket_rate_in_real_time.

(** Two callers, capacity 2, two tokens per second; the stretch begins with one call under way and grants 3 calls in a
    tenth of a second; the bound is 4. *)
Example token_bucket_rate_case :
  let turns := flat_map (fun _ => [MGo 0; MGo 1]) (seq 0 30) in let sched1 := [MCall 0 BAcquire; MTick 900000000] in
  let sched2 := [MCall 1 BAcquire] ++ turns ++ [MTick 1000000000; MCall 0 BAcquire; MCall 1 BAcquire] ++ turns ++ [MCall 0 BAcquire] ++ turns in
  steady_clock 0 (sched1 ++ sched2) /\ no_overflow 2 2 0 (clock_at 0 (sched1 ++ sched2)) /\
  grants (snd (exec (mstep tbfield_eq tb_body) (fst (bucket_exec 2 2 0 2 sched1)) sched2)) = 3 /\ 2 + 2 * (whole_seconds (1000000000 - 900000000) + 1) = 4.
Proof. cbv zeta. split; [vm_compute; repeat split; repeat constructor; discriminate|]. split; [vm_compute; repeat split; discriminate || reflexivity|]. split; vm_compute; reflexivity. Qed.

(** C103.  The sliding window in real time: from a moment without calls, with settings [c] and [win] that are not changed
    after it, in any stretch during which the clock stays within one window size at most [c] calls are granted.  The
    clock may go back and forth. *)
Theorem sliding_window_rate_in_real_time : forall c0 w0 t0 n sched0 sched1 sched2 c win x,
  let step := mstep swfield_eq sw_body in let m0 := fst (sliding_exec c0 w0 t0 n sched0) in let m1 := fst (exec step m0 sched1) in
  Forall readable (t0 :: ticks (sched0 ++ sched1 ++ sched2)) ->
  (forall t, ~ in_call m0 t) -> settings m0 c win -> 0 < c -> 0 <= win -> no_update (sched1 ++ sched2) ->
  Forall (fun z => x <= z <= x + win) (clock_at t0 (sched0 ++ sched1) :: ticks sched2) ->
  grants (snd (exec step m1 sched2)) <= c.
Proof. exact sliding_rate. Qed.
Print Assumptions sliding_window_rate_in_real_time.

(** Two callers after a reconfiguration to capacity 2, window 10; the clock jumps forth and back within the window;
    four calls, two grants. *)
Example sliding_window_rate_case :
  let turns := flat_map (fun _ => [MGo 0; MGo 1]) (seq 0 30) in let step := mstep swfield_eq sw_body in
  let sched0 := [MCall 0 WAcquire; MCall 1 (WUpdateConfig 2 10)] ++ turns in let sched1 := [MCall 0 WCapacity; MTick 1000] in
  let sched2 := [MCall 1 WAcquire] ++ turns ++ [MTick 1010; MCall 0 WAcquire; MCall 1 WAcquire] ++ turns ++ [MTick 1005; MCall 0 WAcquire] ++ turns in
  let m0 := fst (sliding_exec 5 7 500 2 sched0) in
  mo_threads m0 = [None; None] /\ settings m0 2 10 /\
  Forall (fun z => 1000 <= z <= 1000 + 10) (clock_at 500 (sched0 ++ sched1) :: ticks sched2) /\
  grants (snd (exec step (fst (exec step m0 sched1)) sched2)) = 2.
Proof. cbv zeta. split; [vm_compute; reflexivity|]. split; [vm_compute; split; reflexivity|]. split; [vm_compute; repeat constructor; discriminate|]. vm_compute. reflexivity. Qed.

(** C104.  The fixed window in real time: clock values in [low, b] from the creation on, and at least [a] during the
    stretch.  At most capacity calls are granted per window that [a, b] can touch, plus one if no call has returned
    before the stretch. *)
Theorem fixed_window_rate_in_real_time : forall c w t0 n sched1 sched2 low a b, let step := mstep fwfield_eq fw_body in
  let r1 := fixed_exec c w t0 n sched1 in let g := grants (snd (exec step (fst r1) sched2)) in
  0 <= c < 2 ^ 63 -> 0 < w < 2 ^ 60 -> 0 < low -> b < low + 2 ^ 52 -> b < 2 ^ 61 ->
  Forall (fun z => low <= z <= b) (t0 :: ticks (sched1 ++ sched2)) ->
  Forall (fun z => a <= z) (clock_at t0 sched1 :: ticks sched2) ->
  g <= c * ((b - a + w - 1) / w + 1) + 1 /\
  ((exists t r, In (MReturned t FAcquire r) (snd r1)) -> g <= c * ((b - a + w - 1) / w + 1)).
Proof. exact fixed_rate. Qed.
Print Assumptions fixed_window_rate_in_real_time.

(** Two goroutines, capacity 2: two calls just before an edge of the window and two just after. *)
Example fixed_window_rate_reached :
  let turns := flat_map (fun _ => [MGo 0; MGo 1]) (seq 0 30) in let step := mstep fwfield_eq fw_body in
  let sched1 := [MCall 0 FAcquire] ++ turns ++ [MTick 30] in
  let sched2 := [MCall 0 FAcquire; MCall 1 FAcquire] ++ turns ++ [MTick 31; MCall 0 FAcquire; MCall 1 FAcquire] ++ turns ++ [MCall 0 FAcquire] ++ turns in
  let r1 := fixed_exec 2 10 15 2 sched1 in
  In (MReturned 0 FAcquire (LBool true)) (snd r1) /\ grants (snd (exec step (fst r1) sched2)) = 4 /\ 2 * ((31 - 30 + 10 - 1) / 10 + 1) = 4.
Proof. vm_compute. split; [right; left; reflexivity|]. split; reflexivity. Qed.

(** C104 without the one extra call: refuted.  A new limiter with capacity 1 and a window of one second grants both of
    two callers while the clock stands still. *)
Theorem fixed_window_rate_first_calls_refuted :
  exists c w t0 sched, let b := t0 in 0 < c /\ 0 < w < 2 ^ 60 /\ 0 < t0 < 2 ^ 61 /\ ticks sched = [] /\
    grants (snd (fixed_exec c w t0 2 sched)) > c * ((b - t0 + w - 1) / w + 1).
Proof.
  exists 1, second, 1700000000000000001, ([MCall 0 FAcquire; MCall 1 FAcquire] ++ flat_map (fun _ => [MGo 0; MGo 1]) (seq 0 40)).
  unfold second. vm_compute. repeat split; discriminate || reflexivity.
Qed.
Print Assumptions fixed_window_rate_first_calls_refuted.
