(** C116: the Redis TTL rate limiter on a Redis that loses data. *)
From Verif Require Import Common Bytes RedisTtlModel RedisTtlSpec RedisTtlProofs RedisReconfSpec RedisReconfProofs
  RedisLapseModel RedisLapseSpec RedisLapseProofs.
Local Open Scope string_scope.
Local Open Scope Z_scope.

(** C116.  Whatever happened before: each time that Redis loses a key, or falls back to an earlier value of
    it, within a span of a window (widened by the clock difference) lets at most another capacity pass in
    that span. *)
Theorem redis_lapse_bound : forall rk window timeout K skew pre es x,
  0 < window -> 0 < timeout -> 0 <= K -> window * second + 2 * skew <= 2 * timeout * second ->
  separate (calls_of (pre ++ es)) -> nondecreasing (map event_t es) -> Forall (in_sync skew) (calls_of es) ->
  settled rk window timeout K (calls_of es) -> nondecreasing (capacities rk (calls_of es)) ->
  passes_in rk x (x + window * second) (returns_after pre es) <=
    K * (1 + lapses_in rk (x - skew) (x + window * second + skew) es).
Proof. exact lapse_bound. Qed.
Print Assumptions redis_lapse_bound.

(** Two requests per 4 seconds.  The block is lost, then Redis falls back to the time before the second
    request, then it loses an unrelated key. *)
Example redis_lapse_bound_case :
  let P := Params 2 4 3 in
  let f t := Serve (Call new_limiter (OpShouldBlock P P "k" "k" "m") t (t * 1000000) NetOk) in
  let lose k0 t := Lapse t (fun k => if (k =? k0)%string then None else Some O) in
  let es := [f 0; f 100; f 200; lose "k:bl" 300; f 400; Lapse 500 (fun _ => Some 4%nat); f 600; f 700; lose "other" 800; f 900] in
  separate (calls_of es) /\ nondecreasing (map event_t es) /\ Forall (in_sync 0) (calls_of es) /\
  settled "_rl:k" 4 3 2 (calls_of es) /\ nondecreasing (capacities "_rl:k" (calls_of es)) /\
  4 * second + 2 * 0 <= 2 * 3 * second /\
  map snd (returns_after [] es) =
    [Returned zero_result; Returned zero_result; Returned (Result true true 3 "m"); Returned (Result true true 3 "m");
     Returned zero_result; Returned (Result true true 3 "m"); Returned (Result true false 3 "m")] /\
  passes_in "_rl:k" 0 (0 + 4 * second) (returns_after [] es) = 3 /\
  lapses_in "_rl:k" (0 - 0) (0 + 4 * second + 0) es = 1.
Proof.
  cbv zeta.
  split; [intros c1 c2 H1 H2 _; cbn in H1, H2; decompose [or False] H1; decompose [or False] H2; subst; discriminate|].
  split; [cbn; repeat split; repeat constructor; lia|]. split; [repeat constructor; cbn; lia|].
  split.
  { intros c p0 p k b m H. cbn in H. decompose [or False] H; subst; intros [= <- <-] _; unfold params_set; cbn; lia. }
  split; [cbn; repeat split; repeat constructor; lia|]. split; [unfold second; lia|].
  split; [vm_compute; reflexivity|]. split; vm_compute; reflexivity.
Qed.

(** No smaller bound holds, for all parameters and any number of lapses. *)
Theorem redis_lapse_bound_reached : forall P n, params_set P ->
  exists es, separate (calls_of es) /\ nondecreasing (map event_t es) /\ Forall (in_sync 0) (calls_of es) /\
    (forall c, In c (calls_of es) -> c_lim c = new_limiter /\ c_op c = OpShouldBlock P P "k" "k" "m" /\ c_net c = NetOk) /\
    lapses_in "_rl:k" 0 (p_window P * second) es = Z.of_nat n /\
    passes_in "_rl:k" 0 (p_window P * second) (returns_after [] es) = p_capacity P * (1 + Z.of_nat n).
Proof. exact bound_reached. Qed.
Print Assumptions redis_lapse_bound_reached.

Example redis_lapse_bound_reached_case : params_set (Params 5 60 40).
Proof. unfold params_set. cbn. lia. Qed.

(** Lost data never blocks anybody without reason.  Who is told "still blocked" is so because of an
    earlier trigger on the same block key, with its message, for the rest of its timeout... *)
Theorem redis_lapse_block_genuine : forall es c m ttl, still_blocked (then_returns es c) m ttl ->
  exists d o p0 p k b, In (d, o) (returns_after [] es) /\ c_op d = OpShouldBlock p0 p k b m /\
    blocked_under d = blocked_under c /\ (triggered o m (p_timeout p) \/ c_net d = NetLostReply) /\
    c_t c <= c_t d + p_timeout p * 1000 /\ ttl = rounded_left (c_t c) (c_t d + p_timeout p * 1000).
Proof. exact block_genuine. Qed.
Print Assumptions redis_lapse_block_genuine.

(** ... and a trigger still needs [capacity] passes in the last [windowSize] + 1 seconds. *)
Theorem redis_lapse_trigger_needs_full_window : forall es c p0 p k b msg rk m ttl,
  Forall (fun c => c_net c <> NetLostReply) (calls_of es) ->
  Forall (fun c => 0 <= c_ns c) (calls_of es ++ [c]) -> nondecreasing (map c_ns (calls_of es ++ [c])) ->
  c_op c = OpShouldBlock p0 p k b msg -> counted_under c = Some rk ->
  triggered (then_returns es c) m ttl ->
  p_capacity p <= passes_in rk (c_ns c - (p_window p + 1) * second + 1) (c_ns c) (returns_after [] es).
Proof. exact lapse_trigger_needs_full. Qed.
Print Assumptions redis_lapse_trigger_needs_full_window.

(** The block of the third request is lost and comes back; the fourth triggers once more. *)
Example redis_lapse_block_genuine_case :
  let P := Params 2 4 3 in
  let f t := Call new_limiter (OpShouldBlock P P "k" "k" "m") t (t * 1000000) NetOk in
  let es := [Serve (f 0); Serve (f 100); Serve (f 200); Lapse 300 (fun k => if (k =? "k:bl")%string then None else Some O)] in
  let back := (es ++ [Lapse 400 (fun _ => Some 1%nat)])%list in
  Forall (fun c => c_net c <> NetLostReply) (calls_of es) /\ Forall (fun c => 0 <= c_ns c) (calls_of es ++ [f 1000]) /\
  nondecreasing (map c_ns (calls_of es ++ [f 1000])) /\ counted_under (f 1000) = Some "_rl:k" /\
  triggered (then_returns es (f 1000)) "m" 3 /\ still_blocked (then_returns back (f 1000)) "m" 2.
Proof.
  cbv zeta. split; [repeat constructor; discriminate|]. split; [repeat constructor; cbn; lia|].
  split; [cbn; repeat split; repeat constructor; lia|]. split; [reflexivity|]. split; vm_compute; reflexivity.
Qed.

(** No call panics, and all results have the documented shapes. *)
Theorem redis_lapse_shapes : forall es, Forall (fun co : call * outcome => let o := snd co in
    passed o \/ (exists m ttl, triggered o m ttl /\ 0 < ttl) \/ (exists m ttl, still_blocked o m ttl /\ 0 <= ttl))
  (returns_after [] es).
Proof. exact lapse_shapes. Qed.
Print Assumptions redis_lapse_shapes.

(** Blocks do not survive lost data: a request passes although a block was reported a moment ago. *)
Theorem redis_lapse_block_refuted : exists es c,
  Forall effective (calls_of es ++ [c]) /\ nondecreasing (map event_t es ++ [c_t c]) /\
  (exists d m, In (d, Returned (Result true true 3 m)) (returns_after [] es) /\ blocked_under d = blocked_under c /\
     c_t c < c_t d + 3000) /\
  passed (then_returns es c).
Proof.
  set (P := Params 2 4 3).
  set (f := fun t => Call new_limiter (OpShouldBlock P P "k" "k" "m") t (t * 1000000) NetOk).
  exists [Serve (f 0); Serve (f 100); Serve (f 200); Lapse 300 (fun _ => None)], (f 400).
  split; [repeat constructor; cbn; lia|]. split; [cbn; repeat split; repeat constructor; lia|].
  split; [|vm_compute; reflexivity]. exists (f 200), "m". split; [vm_compute; tauto|]. split; [reflexivity|]. cbn. lia.
Qed.
Print Assumptions redis_lapse_block_refuted.
