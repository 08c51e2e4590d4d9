(** Theorems about callers of a limiter after a quiet time, with any number of goroutines (C107). *)
From Verif Require Import Common Threads TokenBucketSpec SlidingWindowSpec MonitorModel MonitorSpec LimiterConcModel LimiterConcSpec LimiterWaitSpec LimiterWaitProofs.

(** C107.  A new bucket refuses none of its first [capacity] callers. *)
Theorem token_bucket_first_callers_served : forall capacity rate t0 n sched,
  0 <= capacity -> 0 <= rate -> no_overflow capacity rate t0 (clock_at t0 sched) -> steady_clock t0 sched ->
  calls b_acquire sched <= capacity -> none_refused b_acquire (snd (bucket_exec capacity rate t0 n sched)).
Proof. exact bucket_first. Qed.
Print Assumptions token_bucket_first_callers_served.

(** From a moment without calls in progress, [s] seconds pass: up to capacity and up to [rate * s] callers after that
    are all served. *)
Theorem token_bucket_callers_served : forall capacity rate t0 n sched1 s c sched2,
  let step := mstep tbfield_eq tb_body in let m1 := fst (bucket_exec capacity rate t0 n sched1) in
  0 <= capacity -> 0 <= rate -> 0 <= s -> no_overflow capacity rate t0 (clock_at c sched2) -> steady_clock t0 (sched1 ++ MTick c :: sched2) ->
  (forall t, ~ in_call m1 t) -> clock_at t0 sched1 + s * second <= c ->
  calls b_acquire sched2 <= capacity -> calls b_acquire sched2 <= rate * s ->
  none_refused b_acquire (snd (exec step m1 (MTick c :: sched2))).
Proof. exact bucket_waited. Qed.
Print Assumptions token_bucket_callers_served.

(** An emptied bucket of 3 with two tokens per second; one second later two goroutines come at once and both are served;
    one more caller would be refused. *)
Example token_bucket_callers_case :
  let turns := flat_map (fun _ => [MGo 0; MGo 1]) (seq 0 30) in let again := [MCall 0 BAcquire; MCall 1 BAcquire] ++ turns in
  let sched1 := again ++ again in let r1 := bucket_exec 3 2 0 2 sched1 in
  mo_threads (fst r1) = [None; None] /\ In (MReturned 1 BAcquire (LBool false)) (snd r1) /\ clock_at 0 sched1 + 1 * second <= 1000000000 /\
  calls b_acquire again = 2 /\
  snd (exec (mstep tbfield_eq tb_body) (fst r1) (MTick 1000000000 :: again ++ [MCall 0 BAcquire] ++ turns)) =
  [MTime 1000000000; MCalled 0 BAcquire; MCalled 1 BAcquire; MReturned 0 BAcquire (LBool true); MReturned 1 BAcquire (LBool true); MCalled 0 BAcquire; MReturned 0 BAcquire (LBool false)].
Proof. cbv zeta. split; [vm_compute; reflexivity|]. split; [vm_compute; tauto|]. split; [vm_compute; discriminate|]. split; vm_compute; reflexivity. Qed.

(** Sliding window: from a moment without calls in progress at which capacity [cap] and window size [win] are in force,
    more than a window passes: up to [cap] callers after that are all served; with capacity 0 all. *)
Theorem sliding_window_callers_served : forall c0 w0 t0 n sched1 c sched2 cap win a,
  let step := mstep swfield_eq sw_body in let m1 := fst (sliding_exec c0 w0 t0 n sched1) in
  Forall readable (t0 :: ticks (sched1 ++ MTick c :: sched2)) -> (forall t, ~ in_call m1 t) -> settings m1 cap win -> no_update sched2 ->
  Forall (fun z => z <= a) (t0 :: ticks sched1) -> Forall (fun z => a + win < z) (c :: ticks sched2) ->
  cap = 0 \/ calls w_acquire sched2 <= cap ->
  none_refused w_acquire (snd (exec step m1 (MTick c :: sched2))).
Proof. exact sliding_waited. Qed.
Print Assumptions sliding_window_callers_served.

(** Reconfigured to 2 per 10 ns and used up at 50; at 61 two goroutines are served, a third call is not.  At 60 a call
    would be refused. *)
Example sliding_window_callers_case :
  let turns := flat_map (fun _ => [MGo 0; MGo 1]) (seq 0 30) in let again := [MCall 0 WAcquire; MCall 1 WAcquire] ++ turns in
  let sched1 := [MCall 0 (WUpdateConfig 2 10)] ++ turns ++ again ++ again in let r1 := sliding_exec 5 7 50 2 sched1 in
  mo_threads (fst r1) = [None; None] /\ settings (fst r1) 2 10 /\ In (MReturned 1 WAcquire (LBool false)) (snd r1) /\ calls w_acquire again = 2 /\
  snd (exec (mstep swfield_eq sw_body) (fst r1) (MTick 61 :: again ++ [MCall 0 WAcquire] ++ turns)) =
  [MTime 61; MCalled 0 WAcquire; MCalled 1 WAcquire; MReturned 0 WAcquire (LBool true); MReturned 1 WAcquire (LBool true); MCalled 0 WAcquire; MReturned 0 WAcquire (LBool false)] /\
  snd (exec (mstep swfield_eq sw_body) (fst r1) (MTick 60 :: [MCall 0 WAcquire] ++ turns)) = [MTime 60; MCalled 0 WAcquire; MReturned 0 WAcquire (LBool false)].
Proof. cbv zeta. split; [vm_compute; reflexivity|]. split; [vm_compute; split; reflexivity|]. split; [vm_compute; tauto|]. repeat split; vm_compute; reflexivity. Qed.

(** Fixed window: from a moment without calls in progress, the window size and 2^11 ns pass: up to [c] callers after that
    are all served. *)
Theorem fixed_window_callers_served : forall c w t0 n sched1 z sched2 low a b,
  let step := mstep fwfield_eq fw_body in let m1 := fst (fixed_exec c w t0 n sched1) in
  0 <= c < 2 ^ 63 -> 0 < w < 2 ^ 60 -> 0 < low -> b < low + 2 ^ 52 -> b < 2 ^ 61 ->
  Forall (fun x => low <= x <= a) (t0 :: ticks sched1) -> (forall t, ~ in_call m1 t) ->
  Forall (fun x => a + w + 2 ^ 11 <= x <= b) (z :: ticks sched2) -> calls f_acquire sched2 <= c ->
  none_refused f_acquire (snd (exec step m1 (MTick z :: sched2))).
Proof. exact fixed_waited. Qed.
Print Assumptions fixed_window_callers_served.

(** Two per second, used up; later two goroutines are served, a third call is not. *)
Example fixed_window_callers_case :
  let turns := flat_map (fun _ => [MGo 0; MGo 1]) (seq 0 30) in let again := [MCall 0 FAcquire; MCall 1 FAcquire] ++ turns in
  let sched1 := again ++ again in let r1 := fixed_exec 2 1000000000 1000 2 sched1 in
  mo_threads (fst r1) = [None; None] /\ In (MReturned 1 FAcquire (LBool false)) (snd r1) /\ calls f_acquire again = 2 /\
  snd (exec (mstep fwfield_eq fw_body) (fst r1) (MTick 1000003048 :: again ++ [MCall 0 FAcquire] ++ turns)) =
  [MTime 1000003048; MCalled 0 FAcquire; MCalled 1 FAcquire; MReturned 0 FAcquire (LBool true); MReturned 1 FAcquire (LBool true); MCalled 0 FAcquire; MReturned 0 FAcquire (LBool false)].
Proof. cbv zeta. split; [vm_compute; reflexivity|]. split; [vm_compute; tauto|]. split; vm_compute; reflexivity. Qed.
