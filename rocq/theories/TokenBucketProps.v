(** Property theorems for the mutex token bucket (C01-C03). *)
From Verif Require Import Common TokenBucketModel TokenBucketSpec TokenBucketProofs.

(** C01.  Total grants between creation at [t0] and any later time [t]. *)
Theorem sync_bucket_total_bound : forall capacity rate t0 t nows,
  0 <= capacity -> 0 <= rate -> t0 <= t -> no_overflow capacity rate t0 t ->
  nondecreasing (t0 :: nows) -> Forall (fun x => x <= t) nows ->
  granted (sync_bucket_results capacity rate t0 nows) <= capacity + rate * whole_seconds (t - t0).
Proof. exact total_bound. Qed.
Print Assumptions sync_bucket_total_bound.

(** Hypotheses met, and the bound reached exactly: capacity 2, rate 1, 5 grants in 3 s. *)
Example sync_bucket_total_bound_tight :
  let nows := [0; 0; 0; second; 2 * second; 3 * second; 3 * second] in
  no_overflow 2 1 0 (3 * second) /\ nondecreasing (0 :: nows) /\
  Forall (fun x => x <= 3 * second) nows /\
  granted (sync_bucket_results 2 1 0 nows) = 2 + 1 * whole_seconds (3 * second - 0).
Proof.
  cbv zeta. repeat split; try (repeat constructor; vm_compute; congruence); vm_compute; auto; congruence.
Qed.

(** C02.  Any stretch of consecutive calls, after any earlier history [pre], whose first call is at
    time [a] and whose calls all happen by [b]. *)
Theorem sync_bucket_span_bound : forall capacity rate t0 pre a rest b,
  0 <= capacity -> 0 <= rate -> no_overflow capacity rate t0 b ->
  nondecreasing (t0 :: pre ++ a :: rest) -> Forall (fun x => x <= b) (a :: rest) ->
  granted (skipn (length pre) (sync_bucket_results capacity rate t0 (pre ++ a :: rest)))
    <= capacity + rate * (whole_seconds (b - a) + 1).
Proof. exact span_bound. Qed.
Print Assumptions sync_bucket_span_bound.

(** The sharper bound (without the extra second) is false: capacity 2, rate 1, idle 5 s, then three
    grants at one instant. *)
Theorem sync_bucket_span_bound_without_slack_refuted :
  exists capacity rate t0 pre a rest b,
    0 <= capacity /\ 0 <= rate /\ no_overflow capacity rate t0 b /\
    nondecreasing (t0 :: pre ++ a :: rest) /\ Forall (fun x => x <= b) (a :: rest) /\
    granted (skipn (length pre) (sync_bucket_results capacity rate t0 (pre ++ a :: rest)))
      > capacity + rate * whole_seconds (b - a).
Proof.
  exists 2, 1, 0, [], (5 * second), [5 * second; 5 * second], (5 * second).
  repeat split; try (repeat constructor; vm_compute; congruence); vm_compute; auto; congruence.
Qed.
Print Assumptions sync_bucket_span_bound_without_slack_refuted.

(** C03.  A call at least one second after creation and after every earlier call is granted. *)
Theorem sync_bucket_waiting_served : forall capacity rate t0 nows t,
  1 <= capacity -> 1 <= rate -> no_overflow capacity rate t0 t ->
  nondecreasing (t0 :: nows) -> Forall (fun x => x + second <= t) (t0 :: nows) ->
  sync_bucket_results capacity rate t0 (nows ++ [t]) =
  sync_bucket_results capacity rate t0 nows ++ [true].
Proof.
  intros capacity rate t0 nows t H1 H2 H3 H4 H5.
  exact (eq_trans (results_snoc capacity rate t0 nows t)
          (f_equal (fun r => _ ++ [r]) (waiting_served capacity rate t0 nows t H1 H2 H3 H4 H5))).
Qed.
Print Assumptions sync_bucket_waiting_served.

(** Non-vacuous: an exhausted bucket (last call refused) is served one second later. *)
Example sync_bucket_waiting_served_case :
  sync_bucket_results 1 1 0 [10; 20; 20 + second] = [true; false; true].
Proof. vm_compute. reflexivity. Qed.

(** Without the monotone clock C03 is false: the clock steps back 3 s and a later caller that waits a
    full second after every earlier reading is still refused. *)
Theorem sync_bucket_waiting_served_backward_clock_refuted :
  exists capacity rate t0 nows t,
    1 <= capacity /\ 1 <= rate /\ Forall (fun x => x + second <= t) (t0 :: nows) /\
    Forall (fun x => 0 <= x < 2 ^ 62) (t0 :: t :: nows) /\
    sync_bucket_results capacity rate t0 (nows ++ [t]) =
    sync_bucket_results capacity rate t0 nows ++ [false].
Proof.
  exists 1, 1, (3 * second), [3 * second; 0; 1900000000; 3800000000], 4800000000.
  repeat split; try (repeat constructor; vm_compute; congruence); vm_compute; auto; congruence.
Qed.
Print Assumptions sync_bucket_waiting_served_backward_clock_refuted.

(** C03, bursts.  A new bucket serves its first [capacity] calls at once. *)
Theorem sync_bucket_initial_burst : forall capacity rate t0 t nows,
  0 <= capacity -> 0 <= rate -> t0 <= t -> no_overflow capacity rate t0 t ->
  nondecreasing (t0 :: nows) -> Forall (fun x => x <= t) nows ->
  Z.of_nat (length nows) <= capacity ->
  sync_bucket_results capacity rate t0 nows = repeat true (length nows).
Proof. exact initial_burst. Qed.
Print Assumptions sync_bucket_initial_burst.

(** After [s] whole seconds without calls, whatever happened before, a burst of up to
    [min capacity (rate * s)] calls is served completely. *)
Theorem sync_bucket_waiting_burst : forall capacity rate t0 nows s a burst t,
  0 <= capacity -> 0 <= rate -> 0 <= s -> no_overflow capacity rate t0 t ->
  nondecreasing (t0 :: nows ++ a :: burst) -> Forall (fun x => x <= t) (a :: burst) ->
  Forall (fun x => x + s * second <= a) (t0 :: nows) ->
  Z.of_nat (length (a :: burst)) <= capacity -> Z.of_nat (length (a :: burst)) <= rate * s ->
  sync_bucket_results capacity rate t0 (nows ++ a :: burst) =
  sync_bucket_results capacity rate t0 nows ++ repeat true (length (a :: burst)).
Proof. exact waiting_burst. Qed.
Print Assumptions sync_bucket_waiting_burst.

(** Capacity 3, rate 2: emptied at once, then three calls after two seconds; the fourth is refused. *)
Example sync_bucket_waiting_burst_case :
  sync_bucket_results 3 2 0 [1; 1; 1; 1; 1 + 2 * second; 1 + 2 * second; 1 + 2 * second; 1 + 2 * second]
  = [true; true; true; false; true; true; true; false].
Proof. vm_compute. reflexivity. Qed.
