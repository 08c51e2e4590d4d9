(** Property theorems for the Redis TTL rate limiter (C14-C19).  [mempty] is the empty Redis store;
    where a theorem has a store [s] it holds for every store content. *)
From Verif Require Import Common Bytes RedisTtlModel RedisTtlSpec RedisTtlProofs.
Local Open Scope string_scope.
Local Open Scope Z_scope.

(** C14.  A reported trigger blocks the block key for the timeout, with the trigger's message, whatever
    other calls are made meanwhile (by any limiter, with any keys, even with network failures). *)
Theorem redis_block_lasts : forall c s cs c' r,
  snd (do_call c s) = Returned r -> res_triggered r = true ->
  exists p0 p k b msg, c_op c = OpShouldBlock p0 p k b msg /\ r = Result true true (p_timeout p) msg /\ 0 < p_timeout p /\
    (Forall (fun d => c_t d <= c_t c + p_timeout p * 1000) (cs ++ [c']) ->
     blocked_under c' = blocked_under c -> effective c' ->
     still_blocked (snd (do_call c' (fst (do_calls cs (fst (do_call c s)))))) msg
       (rounded_left (c_t c') (c_t c + p_timeout p * 1000))).
Proof. exact persists. Qed.
Print Assumptions redis_block_lasts.

(** After every history without lost replies a call reports "still blocked" exactly when the last
    trigger on its block key has not run out, with that trigger's message and the rounded time left. *)
Theorem redis_block_exact : forall cs c,
  Forall (fun c => c_net c <> NetLostReply) cs -> nondecreasing (map c_t (cs ++ [c])) -> effective c ->
  match block_in_force (blocked_under c) (c_t c) (combine cs (snd (do_calls cs mempty))) with
  | Some (m, until) => still_blocked (snd (do_call c (fst (do_calls cs mempty)))) m (rounded_left (c_t c) until)
  | None =>
    match c_op c with
    | OpIsBlocked _ => passed (snd (do_call c (fst (do_calls cs mempty))))
    | OpShouldBlock _ p _ _ msg =>
      passed (snd (do_call c (fst (do_calls cs mempty)))) \/
      triggered (snd (do_call c (fst (do_calls cs mempty)))) msg (p_timeout p)
    end
  end.
Proof. exact in_force_exact. Qed.
Print Assumptions redis_block_exact.

(** A busy key: capacity 1, window 10 s, timeout 3 s. *)
Definition demo_params : params := Params 1 10 3.
Definition demo_call (key msg : string) (t : Z) : call :=
  Call new_limiter (OpShouldBlock demo_params demo_params key "b" msg) t (t * 1000000) NetOk.
Definition demo_check (t : Z) : call := Call new_limiter (OpIsBlocked "b") t (t * 1000000) NetOk.
Definition demo : list call :=
  [demo_call "k" "m1" 0; demo_call "k" "m2" 100; demo_call "other" "m3" 200; demo_check 300; demo_check 2900; demo_check 3100;
   demo_check 3101; demo_call "k" "m4" 3200].
Example redis_block_case :
  snd (do_calls demo mempty) =
    [Returned (Result false false 0 ""); Returned (Result true true 3 "m2"); Returned (Result true false 3 "m2");
     Returned (Result true false 3 "m2"); Returned (Result true false 0 "m2"); Returned (Result true false 0 "m2");
     Returned (Result false false 0 ""); Returned (Result true true 3 "m4")] /\
  nondecreasing (map c_t demo) /\ Forall (fun c => c_net c <> NetLostReply) demo /\ Forall effective demo /\
  blocked_under (demo_check 300) = blocked_under (demo_call "k" "m2" 100).
Proof.
  split; [vm_compute; reflexivity|]. split; [cbn; repeat split; repeat constructor; lia|].
  split; [repeat constructor; discriminate|]. split; [|reflexivity].
  repeat constructor; cbn; lia.
Qed.

(** C15.  At most [capacity] passes per key in any span of [windowSize] seconds, if the limiters'
    parameters for the key are constant, clocks differ by at most [skew] ns and the history under the
    key, which expires after twice the timeout, lives at least a window plus twice the skew. *)
Theorem redis_passes_bound : forall rk P skew cs x,
  params_set P -> p_window P * second + 2 * skew <= 2 * p_timeout P * second ->
  separate cs -> nondecreasing (map c_t cs) -> Forall (in_sync skew) cs ->
  (forall c p0 p k b m, In c cs -> c_op c = OpShouldBlock p0 p k b m -> counted_under c = Some rk -> p0 = P /\ p = P) ->
  passes_in rk x (x + p_window P * second) (combine cs (snd (do_calls cs mempty))) <= p_capacity P.
Proof. exact passes_bound. Qed.
Print Assumptions redis_passes_bound.

Example redis_passes_bound_case :
  let P := Params 2 4 3 in
  let f t := Call new_limiter (OpShouldBlock P P "k" "k" "m") t (t * 1000000) NetOk in
  let cs := [f 0; f 1500; f 2000; f 5001; f 5002; f 9000] in
  params_set P /\ p_window P * second + 2 * 0 <= 2 * p_timeout P * second /\
  separate cs /\ nondecreasing (map c_t cs) /\ Forall (in_sync 0) cs /\
  (forall c p0 p k b m, In c cs -> c_op c = OpShouldBlock p0 p k b m -> counted_under c = Some "_rl:k" -> p0 = P /\ p = P) /\
  passes_in "_rl:k" 0 (0 + p_window P * second) (combine cs (snd (do_calls cs mempty))) = 2 /\
  passes_in "_rl:k" 0 (20 * second) (combine cs (snd (do_calls cs mempty))) = 4.
Proof.
  cbv zeta. split; [unfold params_set; cbn; lia|]. split; [unfold second; cbn; lia|].
  split; [intros c1 c2 H1 H2 _; cbn in H1, H2; decompose [or False] H1; decompose [or False] H2; subst; discriminate|].
  split; [cbn; repeat split; repeat constructor; lia|]. split; [repeat constructor; cbn; lia|].
  split; [|split; vm_compute; reflexivity].
  intros c p0 p k b m H1. cbn in H1. decompose [or False] H1; subst; intros [= <- <-] _; auto.
Qed.

(** And nobody is blocked too early: a call triggers a block only if [capacity] requests for its key have
    passed in the last [windowSize] + 1 seconds, whatever parameters the earlier calls had. *)
Theorem redis_trigger_needs_full_window : forall cs c p0 p k b msg rk m ttl,
  Forall (fun c => c_net c <> NetLostReply) cs ->
  Forall (fun c => 0 <= c_ns c) (cs ++ [c]) -> nondecreasing (map c_ns (cs ++ [c])) ->
  c_op c = OpShouldBlock p0 p k b msg -> counted_under c = Some rk ->
  triggered (snd (do_call c (fst (do_calls cs mempty)))) m ttl ->
  p_capacity p <= passes_in rk (c_ns c - (p_window p + 1) * second + 1) (c_ns c) (combine cs (snd (do_calls cs mempty))).
Proof. exact trigger_needs_full. Qed.
Print Assumptions redis_trigger_needs_full_window.

Example redis_trigger_needs_full_window_case :
  let P := Params 2 4 3 in
  let f t := Call new_limiter (OpShouldBlock P P "k" "k" "m") t (t * 1000000) NetOk in
  let cs := [f 0; f 1500] in
  Forall (fun c => c_net c <> NetLostReply) cs /\ Forall (fun c => 0 <= c_ns c) (cs ++ [f 4999]) /\
  nondecreasing (map c_ns (cs ++ [f 4999])) /\ counted_under (f 4999) = Some "_rl:k" /\
  triggered (snd (do_call (f 4999) (fst (do_calls cs mempty)))) "m" 3 /\
  passed (snd (do_call (f 5000) (fst (do_calls cs mempty)))).
Proof.
  cbv zeta. split; [repeat constructor; discriminate|]. split; [repeat constructor; cbn; lia|].
  split; [cbn; repeat split; repeat constructor; lia|]. split; [reflexivity|]. split; vm_compute; reflexivity.
Qed.

(** With a timeout shorter than half the window the bound fails, for all parameters. *)
Theorem redis_passes_bound_refuted : forall P, params_set P -> 2 * p_timeout P < p_window P ->
  exists cs, separate cs /\ nondecreasing (map c_t cs) /\ Forall (in_sync 0) cs /\
    (forall c, In c cs -> c_lim c = new_limiter /\ c_op c = OpShouldBlock P P "k" "k" "m" /\ c_net c = NetOk) /\
    passes_in "_rl:k" 0 (p_window P * second) (combine cs (snd (do_calls cs mempty))) = p_capacity P + 1.
Proof. exact bound_fails. Qed.
Print Assumptions redis_passes_bound_refuted.

Example redis_passes_bound_refuted_case : params_set (Params 5 60 10) /\ 2 * p_timeout (Params 5 60 10) < p_window (Params 5 60 10).
Proof. unfold params_set. cbn. lia. Qed.

(** C16.  No call panics and every result has one of the documented shapes, except that the ttl of a
    running block can be 0. *)
Theorem redis_result_shapes : forall cs,
  Forall (fun o => passed o \/ (exists m ttl, triggered o m ttl /\ 0 < ttl) \/ (exists m ttl, still_blocked o m ttl /\ 0 <= ttl))
    (snd (do_calls cs mempty)).
Proof. exact shapes. Qed.
Print Assumptions redis_result_shapes.

(** That happens only in the last half second of a block. *)
Theorem redis_zero_ttl_only_at_end : forall cs c m,
  Forall (fun c => c_net c <> NetLostReply) cs -> nondecreasing (map c_t (cs ++ [c])) ->
  still_blocked (snd (do_call c (fst (do_calls cs mempty)))) m 0 ->
  exists d o ttl, In (d, o) (combine cs (snd (do_calls cs mempty))) /\ triggered o m ttl /\
    blocked_under d = blocked_under c /\ c_t d + timeout_ms d - 500 < c_t c <= c_t d + timeout_ms d.
Proof. exact zero_ttl_only_at_end. Qed.
Print Assumptions redis_zero_ttl_only_at_end.

(** And it does happen: "blocked, ttl 0". *)
Theorem redis_result_shapes_refuted : exists cs c,
  Forall effective (cs ++ [c]) /\ nondecreasing (map c_t (cs ++ [c])) /\
  snd (do_call c (fst (do_calls cs mempty))) = Returned (Result true false 0 "m2").
Proof.
  exists [demo_call "k" "m1" 0; demo_call "k" "m2" 100], (demo_check 2900).
  split; [repeat constructor; cbn; lia|]. split; [cbn; repeat split; repeat constructor; lia|]. vm_compute. reflexivity.
Qed.
Print Assumptions redis_result_shapes_refuted.

(** C17.  For a limiter from NewRedisTtlRateLimiter, in every store: IsBlocked reports a block exactly when
    a ShouldBlock2 on that block key would be refused because of it, with the same ttl and message. *)
Theorem redis_is_blocked_agrees : forall t ns ns' p0 p k b msg m ttl s, params_set p0 -> params_set p ->
  (snd (do_call (Call new_limiter (OpIsBlocked b) t ns NetOk) s) = Returned (Result true false ttl m) <->
   snd (do_call (Call new_limiter (OpShouldBlock p0 p k b msg) t ns' NetOk) s) = Returned (Result true false ttl m)).
Proof. exact agree. Qed.
Print Assumptions redis_is_blocked_agrees.

Theorem redis_is_blocked_reads_only : forall l n t ns b s, fst (do_call (Call l (OpIsBlocked b) t ns n) s) = s.
Proof. exact is_blocked_reads_only. Qed.
Print Assumptions redis_is_blocked_reads_only.

(** With cluster limiters IsBlocked never sees a block. *)
Theorem redis_cluster_is_blocked_blind : forall cs c b, Forall cluster_call cs -> c_op c = OpIsBlocked b ->
  passed (snd (do_call c (fst (do_calls cs mempty)))).
Proof. exact cluster_never. Qed.
Print Assumptions redis_cluster_is_blocked_blind.

Theorem redis_cluster_is_blocked_refuted : exists tag cs t b,
  let l := new_cluster_limiter tag in
  Forall (fun c => c_lim c = l) cs /\ Forall effective cs /\
  let s := fst (do_calls cs mempty) in
  still_blocked (snd (do_call (Call l (OpShouldBlock demo_params demo_params "k" b "m") t (t * 1000000) NetOk) s)) "m2" 3 /\
  passed (snd (do_call (Call l (OpIsBlocked b) t (t * 1000000) NetOk) s)).
Proof.
  exists "tag",
    [Call (new_cluster_limiter "tag") (OpShouldBlock demo_params demo_params "k" "b" "m1") 0 0 NetOk;
     Call (new_cluster_limiter "tag") (OpShouldBlock demo_params demo_params "k" "b" "m2") 100 100000000 NetOk], 200, "b".
  cbv zeta. split; [repeat constructor|]. split; [repeat constructor; cbn; lia|]. split; vm_compute; reflexivity.
Qed.
Print Assumptions redis_cluster_is_blocked_refuted.

(** C18.  In a Redis Cluster both keys of a ShouldBlock2 hash the same non-empty part, the configured tag. *)
Theorem redis_cluster_same_slot : forall tag c k b p0 p msg, trim_braces tag <> "" ->
  c_lim c = new_cluster_limiter tag -> c_op c = OpShouldBlock p0 p k b msg ->
  free_of "{" k -> free_of "{" b ->
  exists part, part <> "" /\ counted_under c <> None /\
    (forall rk, counted_under c = Some rk -> hashed_part rk = part) /\ hashed_part (blocked_under c) = part /\
    (free_of "}" (trim_braces tag) -> part = trim_braces tag).
Proof. exact same_slot. Qed.
Print Assumptions redis_cluster_same_slot.

Example redis_cluster_same_slot_case :
  trim_braces "{users}" = "users" /\ free_of "{" "k1" /\ free_of "{" "b}1" /\ free_of "}" "users" /\
  let c := Call (new_cluster_limiter "{users}") (OpShouldBlock demo_params demo_params "k1" "b}1" "m") 0 0 NetOk in
  counted_under c = Some "_rl:k1{users}" /\ blocked_under c = "b}1:bl{users}" /\
  hashed_part "_rl:k1{users}" = "users" /\ hashed_part "b}1:bl{users}" = "users".
Proof. cbn. repeat split; discriminate. Qed.

(** Keys with braces of their own, or an empty tag, break it. *)
Theorem redis_cluster_same_slot_refuted :
  (exists c rk, cluster_call c /\ counted_under c = Some rk /\ hashed_part rk <> hashed_part (blocked_under c) /\
     exists tag, c_lim c = new_cluster_limiter tag /\ trim_braces tag <> "") /\
  (exists c rk, c_lim c = new_cluster_limiter "" /\ counted_under c = Some rk /\ hashed_part rk <> hashed_part (blocked_under c)).
Proof.
  split.
  - exists (Call (new_cluster_limiter "t") (OpShouldBlock demo_params demo_params "{a}" "b" "m") 0 0 NetOk), "_rl:{a}{t}".
    split; [exists "t"; reflexivity|]. split; [reflexivity|]. split; [discriminate|]. exists "t". split; [reflexivity|discriminate].
  - exists (Call (new_cluster_limiter "") (OpShouldBlock demo_params demo_params "a" "b" "m") 0 0 NetOk), "_rl:a{}".
    split; [reflexivity|]. split; [reflexivity|discriminate].
Qed.
Print Assumptions redis_cluster_same_slot_refuted.

(** C19.  Dropping from a history every call that shares no Redis key with the others does not change
    what a later call reports. *)
Theorem redis_isolation : forall (mine : call -> bool) cs c s,
  (forall c1 c2, In c1 (c :: filter mine cs) -> In c2 cs -> mine c2 = false -> unrelated c2 c1) ->
  snd (do_call c (fst (do_calls cs s))) = snd (do_call c (fst (do_calls (filter mine cs) s))).
Proof. exact (fun mine cs c s H => isolation mine cs c s s H (fun _ _ _ _ => eq_refl)). Qed.
Print Assumptions redis_isolation.

(** Calls through one limiter with different keys and different block keys are unrelated, unless a block
    key is "_rl" or begins with "_rl:". *)
Theorem redis_different_keys_unrelated : forall c1 c2, c_lim c1 = c_lim c2 ->
  forall p0 p k1 b1 m q0 q k2 b2 m2,
  c_op c1 = OpShouldBlock p0 p k1 b1 m -> c_op c2 = OpShouldBlock q0 q k2 b2 m2 ->
  k1 <> k2 -> b1 <> b2 ->
  String.prefix "_rl:" b1 = false -> b1 <> "_rl" -> String.prefix "_rl:" b2 = false -> b2 <> "_rl" ->
  unrelated c1 c2.
Proof. exact unrelated_same_limiter. Qed.
Print Assumptions redis_different_keys_unrelated.

Example redis_isolation_case :
  let mk k t := Call new_limiter (OpShouldBlock demo_params demo_params k k "m") t 0 NetOk in
  let mine c := match c_op c with OpShouldBlock _ _ k _ _ => (k =? "a")%string | _ => false end in
  let cs := [mk "a" 0; mk "b" 1; mk "c" 2; mk "b" 3] in
  (forall c1 c2, In c1 (mk "a" 4 :: filter mine cs) -> In c2 cs -> mine c2 = false -> unrelated c2 c1) /\
  snd (do_call (mk "a" 4) (fst (do_calls cs mempty))) = Returned (Result true true 3 "m").
Proof.
  cbv zeta. split; [|vm_compute; reflexivity].
  intros c1 c2 H1 H2 H3. cbn in H1, H2.
  decompose [or False] H1; decompose [or False] H2; subst; try discriminate H3;
    (eapply redis_different_keys_unrelated; [reflexivity|reflexivity|reflexivity|discriminate..|reflexivity|discriminate|reflexivity|discriminate]).
Qed.

(** Unset parameters or an undeliverable request mean "pass" and store nothing; a lost reply means "pass". *)
Theorem redis_fail_open : forall c s,
  (c_net c = NetLostRequest \/
   (exists p0 p k b m, c_op c = OpShouldBlock p0 p k b m /\ (~ params_set p0 \/ ~ params_set p)) ->
   do_call c s = (s, Returned (Result false false 0 ""))) /\
  (c_net c = NetLostReply -> passed (snd (do_call c s))).
Proof. exact fail_open. Qed.
Print Assumptions redis_fail_open.

Example redis_fail_open_case : ~ params_set (Params 5 0 3).
Proof. unfold params_set. cbn. lia. Qed.

(** The two key spaces overlap: a request on key "x:bl" lets a request pass that would be refused. *)
Theorem redis_isolation_refuted : exists c1 c2 cs,
  (exists p k b m, c_op c1 = OpShouldBlock p p k b m /\ exists q k2 b2 m2, c_op c2 = OpShouldBlock q q k2 b2 m2 /\ k <> k2 /\ b <> b2) /\
  c_lim c1 = new_limiter /\ c_lim c2 = new_limiter /\ Forall effective (c1 :: c2 :: cs) /\
  snd (do_call c2 (fst (do_calls cs mempty))) = Returned (Result true true 3 "m") /\
  snd (do_call c2 (fst (do_calls (cs ++ [c1]) mempty))) = Returned (Result false false 0 "").
Proof.
  exists (Call new_limiter (OpShouldBlock demo_params demo_params "x:bl" "z" "m") 100 0 NetOk),
         (Call new_limiter (OpShouldBlock demo_params demo_params "y" "_rl:x" "m") 200 0 NetOk),
         [Call new_limiter (OpShouldBlock demo_params demo_params "y" "_rl:x" "m") 0 0 NetOk].
  split; [exists demo_params, "x:bl", "z", "m"; split; [reflexivity|]; exists demo_params, "y", "_rl:x", "m"; split; [reflexivity|]; split; discriminate|].
  do 2 (split; [reflexivity|]). split; [repeat constructor; cbn; lia|]. split; vm_compute; reflexivity.
Qed.
Print Assumptions redis_isolation_refuted.

(** A lost reply can leave a block behind although the caller was let through. *)
Theorem redis_lost_reply_refuted : exists c s, c_net c = NetLostReply /\
  passed (snd (do_call c s)) /\ fst (do_call c s) <> s /\
  still_blocked (snd (do_call (demo_check 200) (fst (do_call c s)))) "m" 3 /\ passed (snd (do_call (demo_check 200) s)).
Proof.
  set (s := fst (do_calls [demo_call "k" "m1" 0] mempty)).
  set (c := Call new_limiter (OpShouldBlock demo_params demo_params "k" "b" "m") 100 100000000 NetLostReply).
  exists c, s. split; [reflexivity|]. split; [vm_compute; reflexivity|]. split; [|split; vm_compute; reflexivity].
  intros E. apply (f_equal (fun f : rstore => f "b:bl")) in E. vm_compute in E. discriminate.
Qed.
Print Assumptions redis_lost_reply_refuted.
